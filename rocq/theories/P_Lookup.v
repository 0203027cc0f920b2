(** C131-C133: where dependency() looks for a dependency, what it returns, and what happens when it is called again. *)
From Coq Require Import Lia.
From Verif Require Import Base M_Version S_Version M_Feature S_Feature M_Lookup S_Lookup L_Lookup.
Local Arguments B _ : simpl never.

(** * C131: where dependency() looks *)

(** a disabled feature: nothing is looked for *)
Theorem C131_disabled : forall w g k s first rest, k_names k = first :: rest -> disabled g k ->
  dependency w g k s = (s, Ok (RDep {| dp_from := Nowhere first; dp_version := None; dp_found := false |})).
Proof. intros w g k s first rest N D. unfold dependency. rewrite N. now rewrite (proj1 (coerce_disabled g k) D). Qed.
Print Assumptions C131_disabled.

Lemma run_inv w g (P : st -> Prop) ops s : P s -> (forall s k, In (Look k) ops -> P s -> P (fst (dependency w g k s))) ->
  (forall s n d b, In (Override n d b) ops -> P s -> P (override_dependency n d b s)) -> P (run w g ops s).
Proof.
  revert s. induction ops as [|o ops IH]; intros s Hs H1 H2; [exact Hs|]. cbn. apply IH.
  - destruct o as [k|n d b]; [apply H1|apply H2]; auto; now left.
  - intros. apply H1; auto. now right.
  - intros. apply H2; auto. now right.
Qed.
(** an invariant that needs nothing of what is found *)
Lemma state_inv w g k (P : st -> Prop) s :
  (forall s n, P s -> P (note (AskPkg n) s)) ->
  (forall r s n o, coerce_requirement g (k_required k) = Some r -> wrap w <> Nofallback -> P s -> P (fst (subproject w (with_args k r) s n o))) ->
  (forall m d s, P s -> P (remember (k_names k) m d s)) -> P s -> P (fst (dependency w g k s)).
Proof.
  intros H1 H2 H3 Hs. apply (dependency_inv w g k P (fun _ _ => True)); auto.
  - intros r Er _. cbn zeta. split; [exact H1|]. split; [intros; now apply H2|]. unfold special_ok. repeat split; auto. exact LDefault.
  - intros. now exists LDefault.
Qed.

(** with wrap_mode=nofallback no subproject is ever configured *)
Theorem C131_nofallback : forall w g ops n opts, wrap w = Nofallback -> ~ In (Configure n opts) (events (run w g ops empty)).
Proof.
  intros w g ops n opts W. apply (run_inv w g (fun s => ~ In (Configure n opts) (events s))); [intros []| |auto].
  intros s k _. apply (state_inv w g k (fun s => ~ In (Configure n opts) (events s))).
  - intros t m H E. cbn in E. apply in_app_or in E. destruct E as [E|[[=]|[]]]. now apply H.
  - congruence.
  - intros m d t H. now destruct (remember_rest (k_names k) m d t) as (_ & _ & _ & ->).
Qed.
Print Assumptions C131_nofallback.

(** a call that may not use a fallback configures nothing, if no wrap file provides what it looks for *)
Lemma get_quiet w a n s x : x_fb x = None -> (forall f, ~ In (n, f) (provides w)) ->
  let '(s', x', r) := get w a false false n s x in (exists l, s' = asked l s) /\ x_fb x' = None.
Proof.
  intros F Hp. unfold get. destruct (cache _ _ _) as [[d m]|]; [split; [exists []; now rewrite asked_nil|exact F]|].
  destruct (override _ _ _) as [[d m]|]; [split; [exists []; now rewrite asked_nil|exact F]|].
  rewrite F, look_none by exact Hp. unfold system. destruct (pkg _ _ _) as [v|]; [|split; [exists [n]; reflexivity|reflexivity]].
  destruct (version_ok _ _) as [[]| |]; (split; [exists [n]; reflexivity|reflexivity]).
Qed.
Lemma quiet w a names : (forall n f, In n names \/ n = B "ncurses" /\ In (B "curses") names -> ~ In (n, f) (provides w)) -> forall s x, x_fb x = None ->
  exists l, fst (try_names w a false false names s x) = asked l s.
Proof.
  induction names as [|n names IH]; intros Hp s x F; [exists []; now rewrite asked_nil|]. cbn [try_names].
  assert (H : exists l, fst (one_name w a false false n s x) = asked l s).
  { unfold one_name. destruct (beqb_spec n (B "threads")); [exists []; now rewrite asked_nil|].
    destruct (beqb_spec n (B "curses")) as [->|].
    { assert (Hn : forall f, ~ In (B "ncurses", f) (provides w)) by (intros f; apply Hp; right; split; [reflexivity|now left]).
      pose proof (get_quiet w a (B "ncurses") s x F Hn) as H.
      destruct (get _ _ _ _ _ _ _) as [[s1 x1] r1]. destruct H as ((l & ->) & F1). destruct r1 as [[h|]| |]; try (exists l; reflexivity).
      pose proof (get_quiet w a (B "ncurses") (asked l s) x1 F1 Hn) as H.
      destruct (get _ _ _ _ _ _ _) as [[s2 x2] r2]. destruct H as ((l2 & ->) & _). exists (l ++ l2). cbn. now rewrite asked_asked. }
    destruct (beqb n (B "appleframeworks")); [destruct (a_modules a); exists []; now rewrite asked_nil|].
    destruct (beqb n []); [destruct (a_req a); exists []; now rewrite asked_nil|].
    pose proof (get_quiet w a n s x F (fun f => Hp n f (or_introl (or_introl eq_refl)))) as H. destruct (get _ _ _ _ _ _ _) as [[s1 x1] r1]. destruct H as (H & _). exact H. }
  destruct (one_name _ _ _ _ _ _ _) as [s1 r1]. destruct H as (l & H). cbn in H. subst s1. destruct r1 as [[h|]| |]; try (exists l; reflexivity).
  destruct (IH (fun n f H => Hp n f (match H with or_introl H => or_introl (or_intror H) | or_intror (conj E H) => or_intror (conj E (or_intror H)) end)) (asked l s) x F) as (l2 & ->).
  exists (l ++ l2). now rewrite asked_asked.
Qed.
Theorem C131_no_fallback_partial : forall w g k s, ~ falls_back g k ->
  (forall n f, In n (k_names k) \/ n = B "ncurses" /\ In (B "curses") (k_names k) -> ~ In (n, f) (provides w)) ->
  exists l, events (fst (dependency w g k s)) = events s ++ map AskPkg l.
Proof.
  intros w g k s F Hp. assert (Z : events s = events s ++ map AskPkg []) by now rewrite app_nil_r.
  destruct (k_names k) as [|first names] eqn:N.
  { exists []. unfold dependency. rewrite N. exact Z. }
  destruct (coerce_requirement g (k_required k)) as [r|] eqn:E.
  2:{ exists []. unfold dependency. rewrite N, E. exact Z. }
  assert (D : r = RSkip \/ r <> RSkip) by (destruct r; auto; right; discriminate). destruct D as [->|D].
  { exists []. unfold dependency. rewrite N, E. exact Z. }
  rewrite (dependency_lookup w g k s r) by (auto; congruence).
  assert (M : may_fall_back k r = false) by (destruct (may_fall_back k r) eqn:M; [|reflexivity]; apply (falls_may g k r E) in M; contradiction).
  destruct (quiet w (with_args k r) (k_names k)) with (s := s) (x := start k r) as (l & H).
  { rewrite N. exact Hp. } { cbn. unfold with_fb. now rewrite M. }
  exists l. destruct (try_names _ _ _ _ _ _ _) as [s1 r1]. cbn in H. subst s1. rewrite M. unfold finish. destruct r1 as [[h|]| |]; try reflexivity.
  - destruct (dp_found (h_dep h) && negb (h_cached h)); [|reflexivity].
    cbn [fst]. now destruct (remember_rest (k_names k) (h_mode h) (h_dep h) (asked l s)) as (_ & _ & _ & ->).
  - destruct r; reflexivity.
Qed.
Print Assumptions C131_no_fallback_partial.

(** the system comes first *)
Theorem C131_system_first_partial : forall w g k s before n after v, k_names k = before ++ n :: after ->
  required g k \/ optional g k ->
  (forall m, In m (k_names k) -> ordinary m /\ is_new s m) ->
  (forall m u, In m before -> ~ suits w k m u) -> suits w k n v ->
  k_fallback k = None /\ (forall m f, In m (k_names k) -> ~ In (m, f) (provides w))
  \/ before = [] /\ ~ forced w n
     /\ (forall fb, k_fallback k = Some fb \/ In (n, fb) (provides w) -> exists f l, fb = f :: l /\ ~ is_configured s f) ->
  snd (dependency w g k s) = Ok (RDep (package n (wants_static k) v))
  /\ events (fst (dependency w g k s)) = events s ++ map AskPkg (before ++ [n]).
Proof.
  intros w g k s before n after v N R Hn Hb Hv Hf.
  assert (Er : exists r, coerce_requirement g (k_required k) = Some r /\ r <> RSkip).
  { destruct R as [R|R]; [apply coerce_required in R|apply coerce_optional in R]; eexists; (split; [exact R|discriminate]). }
  destruct Er as (r & E & D).
  rewrite (dependency_lookup w g k s r) by (auto; rewrite N; now destruct before).
  assert (T : try_names w (with_args k r) false false (k_names k) s (start k r)
     = (asked (before ++ [n]) s, Ok (Some {| h_dep := package n (wants_static k) v; h_mode := with_mode k; h_cached := false |}))).
  { rewrite N. assert (Hnn : In n (k_names k)) by (rewrite N; apply in_or_app; right; now left).
    destruct Hf as [[F Pv]|(-> & Fo & Hf)].
    - assert (F' : with_fb k r = None) by (unfold with_fb; rewrite F; now destruct (may_fall_back k r)).
      rewrite (first_round w k r F').
      + cbn [try_names]. rewrite one_ordinary by now apply Hn. rewrite get_new.
        2:{ intros m Hm. now apply asked_new, Hn. } 2: exact Hnn.
        unfold the_fb. rewrite F', look_none by (intros f; apply Pv; exact Hnn). cbn [fst snd]. rewrite (system_suits w k r _ n v Hv). cbn. now rewrite asked_asked.
      + intros m Hm. rewrite N. apply in_or_app. now left.
      + intros m Hm. now apply Hn.
      + intros m Hm. assert (Hm' : In m (k_names k)) by (rewrite N; apply in_or_app; now left). split; [now apply Hn|]. split; [intros f; now apply Pv|intros u; now apply Hb].
    - cbn [app try_names]. rewrite one_ordinary by now apply Hn. rewrite get_new; [|intros; now apply Hn|exact Hnn].
      assert (Fb : forall fb, the_fb w false n (with_fb k r) = Some fb -> k_fallback k = Some fb \/ In (n, fb) (provides w)).
      { unfold the_fb, with_fb. intros fb. destruct (may_fall_back k r).
        - destruct (k_fallback k); [intros [= ->]; now left|]. destruct (look n (provides w)) eqn:El; [intros [= ->]; right; now apply look_in|discriminate].
        - destruct (look n (provides w)) eqn:El; [intros [= ->]; right; now apply look_in|discriminate]. }
      cbn zeta. destruct (the_fb w false n (with_fb k r)) as [fb|].
      + destruct (Hf fb (Fb fb eq_refl)) as (f & l & -> & Nc).
        replace (look f (configured s)) with (@None (list (bytes * value))).
        2:{ destruct (look f (configured s)) as [vars|] eqn:El; [|reflexivity]. destruct Nc. exists vars. now apply look_in. }
        replace (mem n (force_for w)) with false.
        2:{ destruct (mem n (force_for w)) eqn:Em; [|reflexivity]. destruct Fo. right. now apply mem_spec. }
        replace (match wrap w with Forcefallback => true | _ => false end) with false.
        2:{ destruct (wrap w) eqn:Ew; try reflexivity. destruct Fo. now left. }
        cbn [orb]. now rewrite (system_suits w k r _ n v Hv).
      + now rewrite (system_suits w k r _ n v Hv). }
  rewrite T. cbn [fst snd finish h_dep h_cached dp_found package andb negb h_mode].
  split; [reflexivity|]. now destruct (remember_rest (k_names k) (with_mode k) (package n (wants_static k) v) (asked (before ++ [n]) s)) as (_ & _ & _ & ->).
Qed.
Print Assumptions C131_system_first_partial.

(** a subproject is used if the system does not have the dependency, or if that is asked for *)
Theorem C131_fallback_partial : forall w g k s n fb f rest opts sp d,
  k_names k = [n] -> ordinary n -> is_new s n -> required g k \/ optional g k -> falls_back g k -> wrap w <> Nofallback ->
  fallback_of w k n fb -> fb = f :: rest -> ~ is_configured s f ->
  (forall v, ~ suits w k n v) \/ forced w n /\ (k_fallback k <> None \/ In (n, fb) (provides w)) ->
  options_for k opts -> subs w f opts = Some sp -> s_ok sp = true -> meets k (s_version sp) ->
  (fb = [f] /\ offers k sp n d \/ exists v, fb = [f; v] /\ variable sp v d) ->
  snd (dependency w g k s) = Ok (RDep d)
  /\ exists l, events (fst (dependency w g k s)) = events s ++ map AskPkg l ++ [Configure f opts]
     /\ (forced w n /\ (k_fallback k <> None \/ In (n, fb) (provides w)) -> l = []).
Proof.
  intros w g k s n fb f rest opts sp d N O Hnew R Fa W Fo Efb Nc Hs Op Es Ok M D.
  assert (Er : exists r, coerce_requirement g (k_required k) = Some r /\ r <> RSkip).
  { destruct R as [R|R]; [apply coerce_required in R|apply coerce_optional in R]; eexists; (split; [exact R|discriminate]). }
  destruct Er as (r & E & Dr).
  rewrite (dependency_lookup w g k s r) by (auto; rewrite N; discriminate).
  assert (Ma : may_fall_back k r = true) by now apply (falls_may g k r E).
  assert (Hn1 : forall m, In m (k_names k) -> is_new s m) by (rewrite N; intros m [<-|[]]; exact Hnew).
  assert (Hn2 : In n (k_names k)) by (rewrite N; now left).
  assert (Ho : forall l e, ~ In (n, e) (o_static (asked l s) ++ o_shared (asked l s))).
  { intros l e He. apply (Hnew e). rewrite !in_app_iff in *. cbn in He. tauto. }
  assert (Fd : forall l, exists s' m, fallback w (with_args k r) (asked l s) (with_mode k) fb = (s', M_Lookup.Ok (Some (d, m))) /\ events s' = events (asked l s) ++ [Configure f opts]).
  { intros l. exact (fallback_does w k r (asked l s) n fb f rest opts sp d N (Ho l) W Efb Nc Op Es Ok M D). }
  assert (Fin : forall s' m l, events s' = events (asked l s) ++ [Configure f opts] ->
     let q := finish k r (s', to_hit (M_Lookup.Ok (Some (d, m)))) in snd q = M_Lookup.Ok (RDep d) /\ events (fst q) = events s ++ map AskPkg l ++ [Configure f opts]).
  { intros s' m l He. cbn. split; [reflexivity|]. rewrite (app_assoc (events s)). change (events s ++ map AskPkg l) with (events (asked l s)). rewrite <- He.
    destruct (dp_found d); [|reflexivity]. cbn. now destruct (remember_rest (k_names k) m d s') as (_ & _ & _ & ->). }
  assert (Fp : (k_fallback k <> None \/ In (n, fb) (provides w)) -> the_fb w false n (with_fb k r) = Some fb).
  { intros Hp. unfold the_fb, with_fb. rewrite Ma. destruct Fo as [fb Ek|fb l1 l2 Ek Ep Hl|Ek Ep].
    - now rewrite Ek.
    - now rewrite Ek, Ep, look_first by exact Hl.
    - destruct Hp as [Hp|Hp]; [congruence|]. now destruct (Ep _ Hp). }
  assert (Pd : (k_fallback k <> None \/ In (n, fb) (provides w)) \/ k_fallback k = None /\ fb = [n] /\ forall f, ~ In (n, f) (provides w)).
  { destruct Fo as [fb Ek|fb l1 l2 Ek Ep Hl|Ek Ep]; [left; left; congruence|left; right; rewrite Ep; apply in_or_app; right; now left|now right]. }
  assert (Fc : forced w n -> match wrap w with Forcefallback => true | _ => false end || mem n (force_for w) = true).
  { intros [F|F]; [now rewrite F|]. rewrite (proj2 (mem_spec _ _) F). apply orb_true_r. }
  destruct Pd as [Pd|(Pk & -> & Pp)].
  - (* a fallback that is known in the first round *)
    specialize (Fp Pd). rewrite N. cbn [try_names]. rewrite one_ordinary by exact O. rewrite get_new by assumption. cbn zeta. rewrite Fp. subst fb. cbn iota.
    match goal with |- context [if ?c then _ else _] => destruct c eqn:Ec end.
    + destruct (Fd []) as (s' & m & Ef & He). rewrite asked_nil in Ef. rewrite Ef. cbn iota. destruct (Fin s' m [] He) as [F1 F2]. split; [exact F1|]. exists []. split; [exact F2|reflexivity].
    + assert (Nf : ~ forced w n) by (intros Hf; rewrite (Fc Hf) in Ec; discriminate).
      destruct Hs as [Hs|[Hs _]]; [|contradiction]. rewrite system_not by exact Hs. cbn iota. destruct (Fd [n]) as (s' & m & Ef & He). rewrite Ef. cbn iota.
      destruct (Fin s' m [n] He) as [F1 F2]. split; [exact F1|]. exists [n]. split; [exact F2|]. intros [Hf _]. contradiction.
  - (* the subproject of that name *)
    destruct Hs as [Hs|[_ [Hs|Hs]]]; [|congruence|now destruct (Pp _ Hs)].
    rewrite N. cbn [try_names]. rewrite one_ordinary by exact O. rewrite get_new by assumption. cbn zeta.
    replace (the_fb w false n (with_fb k r)) with (@None (list bytes)) by (unfold the_fb, with_fb; rewrite Ma, Pk, look_none by exact Pp; reflexivity).
    rewrite system_not by exact Hs. cbn [to_hit]. rewrite Ma. rewrite one_ordinary by exact O. rewrite get_new by assumption. cbn zeta.
    replace (the_fb w true n (with_fb k r)) with (Some [n]) by (unfold the_fb, with_fb; rewrite Ma, Pk, look_none by exact Pp; reflexivity).
    rewrite orb_true_r. destruct (Fd [n]) as (s' & m & Ef & He). rewrite Ef. cbn iota.
    destruct (Fin s' m [n] He) as [F1 F2]. split; [exact F1|]. exists [n]. split; [exact F2|]. intros [_ [Hf|Hf]]; [congruence|now destruct (Pp _ Hf)].
Qed.
Print Assumptions C131_fallback_partial.

(** a fallback has a subproject and at most one variable *)
Theorem C131_long_fallback : forall w g k s n f v x rest,
  k_names k = [n] -> ordinary n -> is_new s n -> required g k \/ optional g k -> falls_back g k -> wrap w <> Nofallback ->
  fallback_of w k n (f :: v :: x :: rest) -> (forall u, ~ suits w k n u) ->
  snd (dependency w g k s) = Err.
Proof.
  intros w g k s n f v x rest N O Hnew R Fa W Fo Hs.
  assert (Er : exists r, coerce_requirement g (k_required k) = Some r /\ r <> RSkip).
  { destruct R as [R|R]; [apply coerce_required in R|apply coerce_optional in R]; eexists; (split; [exact R|discriminate]). }
  destruct Er as (r & E & Dr).
  rewrite (dependency_lookup w g k s r) by (auto; rewrite N; discriminate).
  assert (Ma : may_fall_back k r = true) by now apply (falls_may g k r E).
  assert (Hn1 : forall m, In m (k_names k) -> is_new s m) by (rewrite N; intros m [<-|[]]; exact Hnew).
  assert (Hn2 : In n (k_names k)) by (rewrite N; now left).
  assert (Fe : forall s' m, fallback w (with_args k r) s' m (f :: v :: x :: rest) = (s', Err)).
  { intros s' m. unfold fallback. destruct (wrap w); try reflexivity; congruence. }
  assert (Fp : the_fb w false n (with_fb k r) = Some (f :: v :: x :: rest)).
  { unfold the_fb, with_fb. rewrite Ma. inversion Fo as [fb Ek|fb l1 l2 Ek Ep Hl|].
    - now rewrite Ek.
    - now rewrite Ek, Ep, look_first by exact Hl. }
  rewrite N. cbn [try_names]. rewrite one_ordinary by exact O. rewrite get_new by assumption. cbn zeta. rewrite Fp. cbn iota.
  match goal with |- context [if ?c then _ else _] => destruct c eqn:Ec end.
  - rewrite Fe. reflexivity.
  - rewrite system_not by exact Hs. cbn iota. rewrite Fe. reflexivity.
Qed.
Print Assumptions C131_long_fallback.

(** nothing is found: an error if the dependency is required *)
Theorem C131_not_found : forall w g k s, k_names k <> [] ->
  (forall n, In n (k_names k) -> ordinary n /\ is_new s n /\ forall v, ~ suits w k n v) ->
  wrap w = Nofallback \/ (forall f o, subs w f o = None) /\ (forall f, ~ is_configured s f) ->
  (forall fb, k_fallback k = Some fb \/ (exists n, In (n, fb) (provides w)) -> exists f, fb = [f] \/ exists v, fb = [f; v]) ->
  (required g k -> snd (dependency w g k s) = Err)
  /\ (optional g k -> snd (dependency w g k s) = Ok (if k_disabler k then RDisabler else RDep {| dp_from := Nowhere (last (k_names k) []); dp_version := None; dp_found := false |}))
  /\ (required g k \/ optional g k -> exists l, events (fst (dependency w g k s)) = events s ++ map AskPkg l).
Proof.
  intros w g k s N Hn Hs F.
  assert (Ns : no_subprojects w k s).
  { destruct Hs as [Hs|[Hs Hc]]; [now left|right]. split; [exact Hs|]. destruct (configured s) as [|[f vars] c] eqn:Ec; [reflexivity|]. destruct (Hc f). exists vars. rewrite Ec. now left. }
  assert (G : forall r, coerce_requirement g (k_required k) = Some r -> r <> RSkip -> exists l, dependency w g k s = finish k r (asked l s, Ok None)).
  { intros r E D. rewrite (dependency_lookup w g k s r N E D).
    destruct (nothing_there w k r false false (k_names k) F s Ns (fun _ H => H)) as (l & ->); [intros; now apply Hn|intros n Hi; destruct (Hn n Hi) as (? & _ & ?); now split|].
    destruct (may_fall_back k r); [|exists l; reflexivity].
    destruct (nothing_there w k r true true (k_names k) F (asked l s) Ns (fun _ H => H)) as (l2 & ->); [intros; now apply Hn|intros n Hi; destruct (Hn n Hi) as (? & _ & ?); now split|].
    exists (l ++ l2). now rewrite asked_asked. }
  split; [|split].
  - intros R. apply coerce_required in R. destruct (G _ R ltac:(discriminate)) as (l & ->). reflexivity.
  - intros R. apply coerce_optional in R. destruct (G _ R ltac:(discriminate)) as (l & ->). reflexivity.
  - intros [R|R]; [apply coerce_required in R|apply coerce_optional in R]; destruct (G _ R ltac:(discriminate)) as (l & ->); exists l; reflexivity.
Qed.
Print Assumptions C131_not_found.

(** a world to show the hypotheses can be met, and what the theorems leave out *)
Definition plain_call (names : list bytes) : call :=
  {| k_names := names; k_required := None; k_version := None; k_static := None; k_modules := None; k_fallback := None; k_allow := None; k_defaults := []; k_disabler := false |}.
Definition with_version (v : list bytes) (k : call) : call :=
  {| k_names := k_names k; k_required := k_required k; k_version := Some v; k_static := k_static k; k_modules := k_modules k; k_fallback := k_fallback k; k_allow := k_allow k; k_defaults := k_defaults k; k_disabler := k_disabler k |}.
Definition with_fallback (fb : list bytes) (k : call) : call :=
  {| k_names := k_names k; k_required := k_required k; k_version := k_version k; k_static := k_static k; k_modules := k_modules k; k_fallback := Some fb; k_allow := k_allow k; k_defaults := k_defaults k; k_disabler := k_disabler k |}.
Definition with_static (b : bool) (k : call) : call :=
  {| k_names := k_names k; k_required := k_required k; k_version := k_version k; k_static := Some b; k_modules := k_modules k; k_fallback := k_fallback k; k_allow := k_allow k; k_defaults := k_defaults k; k_disabler := k_disabler k |}.
Definition with_allow (b : bool) (k : call) : call :=
  {| k_names := k_names k; k_required := k_required k; k_version := k_version k; k_static := k_static k; k_modules := k_modules k; k_fallback := k_fallback k; k_allow := Some b; k_defaults := k_defaults k; k_disabler := k_disabler k |}.
Definition not_required (k : call) : call :=
  {| k_names := k_names k; k_required := Some (KBool false); k_version := k_version k; k_static := k_static k; k_modules := k_modules k; k_fallback := k_fallback k; k_allow := k_allow k; k_defaults := k_defaults k; k_disabler := k_disabler k |}.
Definition own : dep := {| dp_from := Declared (B "own"); dp_version := Some (B "2.0"); dp_found := true |}.
Definition a_sub : sub := {| s_ok := true; s_version := B "2.0"; s_static := []; s_shared := [(B "foo", own)]; s_vars := [(B "foo_dep", VDep own)] |}.
Definition a_world (wm : wrap_mode) (forces : list bytes) (pv : list (bytes * list bytes)) (good : bool) : world :=
  {| pkg := fun n _ => if beqb n (B "foo") then None else if beqb n (B "bar") then Some (B "1.0") else if beqb n (B "zlib") then Some (B "1.3") else None;
     subs := fun n _ => if beqb n (B "foo") || beqb n (B "sub") || beqb n (B "zlib")
                        then Some {| s_ok := good; s_version := s_version a_sub; s_static := s_static a_sub; s_shared := s_shared a_sub; s_vars := s_vars a_sub |} else None;
     wrap := wm; force_for := forces; provides := pv; darwin := false |}.
Definition w0 : world := a_world Nopromote [] [] true.

Ltac ordinaries := unfold ordinary; vm_compute; intuition congruence.
Example ex_system : snd (dependency w0 None (with_version [B ">=1.1"] (plain_call [B "bar"; B "zlib"])) empty) = Ok (RDep (package (B "zlib") false (B "1.3"))).
Proof.
  refine (proj1 (C131_system_first_partial w0 None (with_version [B ">=1.1"] (plain_call [B "bar"; B "zlib"])) empty [B "bar"] (B "zlib") [] (B "1.3") eq_refl _ _ _ _ _)).
  - left. now left.
  - intros m [<-|[<-|[]]]; (split; [ordinaries|intros d []]).
  - intros m u [<-|[]] [E M]. vm_compute in E. injection E as <-. apply compare_meets in M. vm_compute in M. discriminate.
  - split; [reflexivity|]. apply compare_meets. reflexivity.
  - left. split; [reflexivity|]. intros m f _ [].
Qed.
Example ex_fallback : snd (dependency w0 None (plain_call [B "foo"]) empty) = Ok (RDep own)
  /\ events (fst (dependency w0 None (plain_call [B "foo"]) empty)) = [AskPkg (B "foo"); Configure (B "foo") []].
Proof. split; reflexivity. Qed.
Example ex_fallback_by_the_theorem : snd (dependency w0 None (plain_call [B "foo"]) empty) = Ok (RDep own).
Proof.
  refine (proj1 (C131_fallback_partial w0 None (plain_call [B "foo"]) empty (B "foo") [B "foo"] (B "foo") [] [] a_sub own eq_refl _ _ _ _ _ _ eq_refl _ _ _ _ _ _ _)).
  - ordinaries.
  - intros d [].
  - left. now left.
  - right. split; [reflexivity|]. left. now left.
  - discriminate.
  - apply fo_name; [reflexivity|]. intros f [].
  - intros (vars & []).
  - left. intros v [[=] _].
  - reflexivity.
  - reflexivity.
  - reflexivity.
  - exact I.
  - left. split; [reflexivity|]. right. split; [intros e []|]. exists [], []. split; [reflexivity|intros e []].
Qed.
Example ex_long_fallback : snd (dependency w0 None (with_fallback [B "sub"; B "foo_dep"; B "x"] (plain_call [B "foo"])) empty) = Err.
Proof.
  apply (C131_long_fallback _ _ _ _ (B "foo") (B "sub") (B "foo_dep") (B "x") []); try reflexivity.
  - ordinaries.
  - intros d [].
  - left. now left.
  - right. split; [reflexivity|]. left. now left.
  - discriminate.
  - apply fo_given. reflexivity.
  - intros v [[=] _].
Qed.
Example ex_not_found : snd (dependency w0 None (plain_call [B "quux"]) empty) = Err
  /\ snd (dependency w0 None (not_required (plain_call [B "quux"])) empty) = Ok (RDep {| dp_from := Nowhere (B "quux"); dp_version := None; dp_found := false |}).
Proof. split; reflexivity. Qed.

(** With several names, the fallback is used before the second name is looked for. *)
Theorem C131_several_names_refuted : exists w k n v, wrap w = Nopromote /\ force_for w = [] /\ provides w = []
  /\ required None k /\ In n (k_names k) /\ (forall m, In m (k_names k) -> ordinary m) /\ suits w k n v
  /\ snd (dependency w None k empty) = Ok (RDep own) /\ ~ In (AskPkg n) (events (fst (dependency w None k empty))).
Proof.
  exists w0, (with_fallback [B "sub"; B "foo_dep"] (plain_call [B "foo"; B "zlib"])), (B "zlib"), (B "1.3").
  repeat split; try reflexivity; [now left|right; now left|intros m [<-|[<-|[]]]; ordinaries|vm_compute; intuition discriminate].
Qed.
Print Assumptions C131_several_names_refuted.
(** allow_fallback: false does not keep a subproject that a wrap file names from being used. *)
Theorem C131_allow_fallback_false_refuted : exists w k, k_allow k = Some false
  /\ In (Configure (B "sub") []) (events (fst (dependency w None k empty))).
Proof. exists (a_world Nopromote [] [(B "foo", [B "sub"])] true), (with_allow false (plain_call [B "foo"])). split; [reflexivity|]. vm_compute. tauto. Qed.
Print Assumptions C131_allow_fallback_false_refuted.
(** Forcing the use of fallbacks has no effect on the subproject of the same name. *)
Theorem C131_forced_refuted : exists w k n v, forced w n /\ k_names k = [n] /\ falls_back None k /\ required None k
  /\ (exists sp, subs w n [] = Some sp /\ s_ok sp = true)
  /\ snd (dependency w None k empty) = Ok (RDep (package n false v)).
Proof.
  exists (a_world Forcefallback [B "zlib"] [] true), (plain_call [B "zlib"]), (B "zlib"), (B "1.3").
  split; [now left|]. split; [reflexivity|]. split; [right; split; [reflexivity|]; left; now left|]. split; [now left|]. split; [eexists; split; reflexivity|reflexivity].
Qed.
Print Assumptions C131_forced_refuted.
(** With wrap_mode=nofallback, a dependency of the system is not found if force_fallback_for names it. *)
Theorem C131_nofallback_refuted : exists w k n v, wrap w = Nofallback /\ k_names k = [n] /\ ordinary n /\ suits w k n v /\ required None k
  /\ snd (dependency w None k empty) = Err.
Proof.
  exists (a_world Nofallback [B "zlib"] [] true), (with_fallback [B "sub"; B "foo_dep"] (plain_call [B "zlib"])), (B "zlib"), (B "1.3").
  split; [reflexivity|]. split; [reflexivity|]. split; [ordinaries|]. split; [split; [reflexivity|exact I]|]. split; [now left|reflexivity].
Qed.
Print Assumptions C131_nofallback_refuted.
(** An empty list of fallbacks for a required dependency aborts. *)
Theorem C131_empty_fallback_refuted : exists w k s, snd (dependency w None k s) = Crash.
Proof. exists w0, (with_fallback [] (plain_call [B "foo"])), empty. reflexivity. Qed.
Print Assumptions C131_empty_fallback_refuted.

(** * C132: what dependency() returns *)
Definition known (w : world) (ops : list op) (d : dep) : Prop :=
  (exists n b v, d = package n b v /\ pkg w n b = Some v) \/ built_in d \/ offered w ops d.
Record sound (w : world) (ops : list op) (s : st) : Prop := {
  so_cache : forall n d, In (n, d) (c_static s ++ c_shared s) -> dp_found d = true /\ known w ops d;
  so_over : forall n d, In (n, d) (o_static s ++ o_shared s) -> offered w ops d;
  so_vars : forall n vars v d, In (n, vars) (configured s) -> In (v, VDep d) vars -> offered w ops d;
  so_shared : forall n d m, In (n, d) (c_shared s) -> dp_from d = FromSystem m true -> offered w ops d }.
(** what is known of a dependency that a call returns *)
Record fits (w : world) (ops : list op) (k : call) (d : dep) (m : lmode) : Prop := {
  fi_known : dp_found d = true -> known w ops d;
  fi_version : k_version k <> None -> dp_found d = true -> (exists v, dp_version d = Some v /\ meets k v) \/ built_in d \/ offered w ops d;
  fi_static : forall n, m <> LStatic -> dp_from d = FromSystem n true -> offered w ops d }.

Lemma sound_lookup w g ops k s : sound w ops s ->
  sound w ops (fst (dependency w g k s)) /\ forall d, snd (dependency w g k s) = Ok (RDep d) -> exists m, like (with_mode k) m /\ fits w ops k d m.
Proof.
  intros Hs. apply (dependency_inv w g k (sound w ops) (fun d m => like (with_mode k) m /\ fits w ops k d m)); [| | |exact Hs].
  - intros r Er Dr. cbn zeta. split; [|split; [|split; [|split; [|split; [|split; [|split]]]]]].
    + intros t n [A1 A2 A3 A4]. now constructor.
    + intros t n o W T. destruct (subproject_cases w (with_args k r) t n o) as [->|(sp & _ & Es & E1 & E2 & E3 & E4 & E5 & _)]; [exact T|]. destruct T as [A1 A2 A3 A4].
      constructor; rewrite ?E1, ?E2, ?E3, ?E4.
      * exact A1.
      * intros x d H. rewrite !in_app_iff in H. destruct H as [[H|H]|[H|H]].
        1,3: right; exists n, o, sp; split; [exact Es|]; exists x; left; apply in_or_app; tauto.
        all: apply (A2 x d); apply in_or_app; tauto.
      * intros x vars v d H Hv. destruct E5 as [E5|E5]; rewrite E5 in H; [now apply (A3 x vars v d)|]. destruct H as [[= <- <-]|H]; [|now apply (A3 x vars v d)].
        right. exists n, o, sp. split; [exact Es|]. exists v. now right.
      * exact A4.
    + intros t m n d m' L T Ec Hv. split; [exact (cache_mode _ _ _ _ _ _ L Ec)|]. pose proof (cache_in _ _ _ _ _ Ec) as Hin.
      assert (Hin2 : In (n, d) (c_static t ++ c_shared t)) by (apply in_or_app; tauto).
      destruct (so_cache _ _ _ T _ _ Hin2) as [F K]. constructor; [auto| |].
      * intros Nv _. left. destruct (dp_version d) as [v|]; [exists v; split; [reflexivity|]; now apply version_meets in Hv|]. unfold version_ok in Hv. cbn in Hv. destruct (k_version k); congruence.
      * intros x Hm Hx. assert (Hsh : m' = LShared -> In (n, d) (c_shared t)).
        { intros ->. unfold cache in Ec. destruct (if not_shared m then look n (c_static t) else None); [discriminate|]. destruct (not_static m); [|discriminate]. destruct (look n (c_shared t)) eqn:El; [injection Ec as ->; now apply look_in|discriminate]. }
        apply (so_shared _ _ _ T n d x); [|exact Hx]. apply Hsh. unfold cache in Ec. destruct (if not_shared m then look n (c_static t) else None); [congruence|].
        destruct (if not_static m then look n (c_shared t) else None); [congruence|discriminate].
    + intros t m d m' L T Eo. split; [exact (override_mode _ _ _ _ _ _ L Eo)|]. destruct (override_in _ _ _ _ _ Eo) as (n & _ & Hin). pose proof (so_over _ _ _ T _ _ Hin) as Of.
      constructor; [right; now right|right; now right|auto].
    + intros t n v vars d m L T E1 E2. split; [exact L|]. pose proof (so_vars _ _ _ T _ _ _ _ (look_in _ _ _ E1) (look_in _ _ _ E2)) as Of.
      constructor; [right; now right|right; now right|auto].
    + intros n m v L Ep Hv. split; [exact L|]. constructor.
      * intros _. left. do 3 eexists. split; [reflexivity|exact Ep].
      * intros _ _. left. exists v. split; [reflexivity|now apply version_meets in Hv].
      * cbn. intros x Hm [= _ E]. destruct m; congruence.
    + split; [|split].
      * intros _ m L. split; [exact L|]. constructor; cbn; try discriminate; intros; right; left; exact I.
      * intros _ ms _ _ m L. split; [exact L|]. constructor; cbn; try discriminate; intros; right; left; exact I.
      * intros _ m L. split; [exact L|]. constructor; cbn; try discriminate.
    + intros _ n. exists (with_mode k). split; [now left|]. constructor; cbn; try discriminate.
  - intros n _. exists (with_mode k). split; [now left|]. constructor; cbn; try discriminate.
  - intros m d t [_ [F1 _ F3]] Hd [A1 A2 A3 A4]. destruct (remember_rest (k_names k) m d t) as (R1 & R2 & R3 & _). constructor; rewrite ?R1, ?R2, ?R3; try assumption.
    + intros n e H. apply in_app_or in H. destruct H as [H|H]; [apply remember_static in H|apply remember_shared in H]; destruct H as [H|(-> & _)]; try (apply (A1 n e); apply in_or_app; tauto); split; auto.
    + intros n e x H Hx. apply remember_shared in H. destruct H as [H|(-> & _ & Hm)]; [now apply (A4 n e x)|]. now apply (F3 x).
Qed.
Lemma sound_run w g ops : sound w ops (run w g ops empty).
Proof.
  apply (run_inv w g (sound w ops)).
  - constructor; cbn; intros; contradiction.
  - intros s k _ Hs. now apply sound_lookup.
  - intros s n d b Hi [A1 A2 A3 A4]. constructor; cbn; try assumption.
    intros x e H. assert (D : In (x, e) (o_static s ++ o_shared s) \/ e = d).
    { apply in_app_or in H. destruct b; cbn in H; rewrite in_app_iff; (destruct H as [H|H]; [|try tauto]).
      - destruct H as [[= _ ->]|H]; tauto.
      - tauto.
      - destruct H as [[= _ ->]|H]; tauto. }
    destruct D as [D| ->]; [now apply (A2 x e)|]. left. exists n, b. exact Hi.
Qed.

(** A dependency that is found has a version that the call asks for, unless it is built in or the project or a subproject offers it. *)
Theorem C132_versions_partial : forall w g ops k d, snd (dependency w g k (run w g ops empty)) = Ok (RDep d) -> dp_found d = true -> k_version k <> None ->
  (exists v, dp_version d = Some v /\ meets k v) \/ built_in d \/ offered w ops d.
Proof. intros w g ops k d E F V. destruct (sound_lookup w g ops k _ (sound_run w g ops)) as [_ H]. destruct (H d E) as (m & _ & [_ Hv _]). auto. Qed.
Print Assumptions C132_versions_partial.

(** A dependency that is found is a package of the system with its version, or built in, or offered by the project or a subproject. *)
Theorem C132_found : forall w g ops k d, snd (dependency w g k (run w g ops empty)) = Ok (RDep d) -> dp_found d = true ->
  (exists n b v, d = package n b v /\ pkg w n b = Some v) \/ built_in d \/ offered w ops d.
Proof. intros w g ops k d E F. destruct (sound_lookup w g ops k _ (sound_run w g ops)) as [_ H]. destruct (H d E) as (m & _ & [Hv _ _]). exact (Hv F). Qed.
Print Assumptions C132_found.

(** static: false never gives static libraries of the system *)
Theorem C132_static_partial : forall w g ops k d n, snd (dependency w g k (run w g ops empty)) = Ok (RDep d) ->
  k_static k = Some false -> dp_from d = FromSystem n true -> offered w ops d.
Proof.
  intros w g ops k d n E S F. destruct (sound_lookup w g ops k _ (sound_run w g ops)) as [_ H]. destruct (H d E) as (m & L & [_ _ Hv]).
  apply (Hv n); [|exact F]. unfold like, with_mode in L. rewrite S in L. destruct L; congruence.
Qed.
Print Assumptions C132_static_partial.

(** A required dependency is found, or it is an error. *)
Theorem C132_required_partial : forall w g ops k q, required g k -> snd (dependency w g k (run w g ops empty)) = Ok q ->
  (forall d, offered w ops d -> dp_found d = true) -> ~ (In (B "appleframeworks") (k_names k) /\ darwin w = false) ->
  exists d, q = RDep d /\ dp_found d = true.
Proof.
  intros w g ops k q R E Ho Ha. pose proof (proj1 (coerce_required g k) R) as Er.
  assert (Nd : q <> RDisabler).
  { intros ->. destruct (k_names k) as [|f l] eqn:N; [unfold dependency in E; rewrite N in E; discriminate|].
    rewrite (dependency_lookup w g k _ RRequired) in E by (congruence || discriminate). unfold finish in E.
    match type of E with snd (let '(_, _) := ?X in _) = _ => destruct X as [s2 [[h|]| |]] end; discriminate. }
  destruct q as [d|]; [|congruence]. exists d. split; [reflexivity|].
  assert (G : sound w ops (fst (dependency w g k (run w g ops empty))) /\ forall d, snd (dependency w g k (run w g ops empty)) = Ok (RDep d) -> exists m : lmode, dp_found d = true /\ (fits w ops k d m /\ like (with_mode k) m)).
  2:{ destruct G as [_ G]. destruct (G d E) as (m & H & _). exact H. }
  apply (dependency_inv w g k (sound w ops) (fun d m => dp_found d = true /\ (fits w ops k d m /\ like (with_mode k) m))); [| | |exact (sound_run w g ops)].
  - intros r Er' _. rewrite Er in Er'. injection Er' as <-. cbn zeta.
    (* the same as for all lookups *)
    assert (Of : forall d m, like (with_mode k) m -> offered w ops d -> dp_found d = true /\ fits w ops k d m /\ like (with_mode k) m).
    { intros e m L O. split; [now apply Ho|]. split; [|exact L]. constructor; [right; now right|right; now right|auto]. }
    split; [|split; [|split; [|split; [|split; [|split; [|split]]]]]].
    + intros t n [A1 A2 A3 A4]. now constructor.
    + intros t n o W T. destruct (subproject_cases w (with_args k RRequired) t n o) as [->|(sp & _ & Es & E1 & E2 & E3 & E4 & E5 & _)]; [exact T|]. destruct T as [A1 A2 A3 A4].
      constructor; rewrite ?E1, ?E2, ?E3, ?E4.
      * exact A1.
      * intros x e H. rewrite !in_app_iff in H. destruct H as [[H|H]|[H|H]].
        1,3: right; exists n, o, sp; split; [exact Es|]; exists x; left; apply in_or_app; tauto.
        all: apply (A2 x e); apply in_or_app; tauto.
      * intros x vars v e H Hv. destruct E5 as [E5|E5]; rewrite E5 in H; [now apply (A3 x vars v e)|]. destruct H as [[= <- <-]|H]; [|now apply (A3 x vars v e)].
        right. exists n, o, sp. split; [exact Es|]. exists v. now right.
      * exact A4.
    + intros t m n e m' L T Ec Hv. pose proof (cache_in _ _ _ _ _ Ec) as Hin.
      assert (Hin2 : In (n, e) (c_static t ++ c_shared t)) by (apply in_or_app; tauto).
      destruct (so_cache _ _ _ T _ _ Hin2) as [F K]. split; [exact F|]. split; [|exact (cache_mode _ _ _ _ _ _ L Ec)]. constructor; [auto| |].
      * intros Nv _. left. destruct (dp_version e) as [v|]; [exists v; split; [reflexivity|]; now apply version_meets in Hv|]. unfold version_ok in Hv. cbn in Hv. destruct (k_version k); congruence.
      * intros x Hm Hx. assert (Hsh : m' = LShared -> In (n, e) (c_shared t)).
        { intros ->. unfold cache in Ec. destruct (if not_shared m then look n (c_static t) else None); [discriminate|]. destruct (not_static m); [|discriminate]. destruct (look n (c_shared t)) eqn:El; [injection Ec as ->; now apply look_in|discriminate]. }
        apply (so_shared _ _ _ T n e x); [|exact Hx]. apply Hsh. unfold cache in Ec. destruct (if not_shared m then look n (c_static t) else None); [congruence|].
        destruct (if not_static m then look n (c_shared t) else None); [congruence|discriminate].
    + intros t m e m' L T Eo. destruct (override_in _ _ _ _ _ Eo) as (n & _ & Hin). apply Of; [exact (override_mode _ _ _ _ _ _ L Eo)|]. exact (so_over _ _ _ T _ _ Hin).
    + intros t n v vars e m L T E1 E2. apply Of; [exact L|]. exact (so_vars _ _ _ T _ _ _ _ (look_in _ _ _ E1) (look_in _ _ _ E2)).
    + intros n m v L Ep Hv. split; [reflexivity|]. split; [|exact L]. constructor.
      * intros _. left. do 3 eexists. split; [reflexivity|exact Ep].
      * intros _ _. left. exists v. split; [reflexivity|now apply version_meets in Hv].
      * cbn. intros x Hm [= _ E']. destruct m; congruence.
    + split; [|split].
      * intros _ m L. split; [reflexivity|]. split; [|exact L]. constructor; cbn; try discriminate; intros; right; left; exact I.
      * intros _ ms _ _ m L. split; [reflexivity|]. split; [|exact L]. constructor; cbn; try discriminate; intros; right; left; exact I.
      * intros [H|[_ H]]; [contradiction|cbn in H; congruence].
    + congruence.
  - intros n D. apply coerce_disabled in D. congruence.
  - intros m e t (_ & [F1 _ F3] & _) Hd [A1 A2 A3 A4]. destruct (remember_rest (k_names k) m e t) as (R1 & R2 & R3 & _). constructor; rewrite ?R1, ?R2, ?R3; try assumption.
    + intros n e' H. apply in_app_or in H. destruct H as [H|H]; [apply remember_static in H|apply remember_shared in H]; destruct H as [H|(-> & _)]; try (apply (A1 n e'); apply in_or_app; tauto); split; auto.
    + intros n e' x H Hx. apply remember_shared in H. destruct H as [H|(-> & _ & Hm)]; [now apply (A4 n e' x)|]. now apply (F3 x).
Qed.
Print Assumptions C132_required_partial.
Example ex_versions : let k := with_version [B ">=1.1"] (plain_call [B "zlib"]) in
  snd (dependency w0 None k (run w0 None [Look (plain_call [B "bar"]); Look (plain_call [B "zlib"])] empty)) = Ok (RDep (package (B "zlib") false (B "1.3")))
  /\ meets k (B "1.3") /\ required None k.
Proof. split; [reflexivity|]. split; [apply compare_meets; reflexivity|now left]. Qed.

(** The version of a dependency that is overridden is not looked at. *)
Theorem C132_versions_refuted : exists w ops k d v, snd (dependency w None k (run w None ops empty)) = Ok (RDep d) /\ dp_found d = true
  /\ k_version k <> None /\ dp_version d = Some v /\ ~ meets k v.
Proof.
  exists w0, [Override (B "foo") own false], (with_version [B ">=3"] (plain_call [B "foo"])), own, (B "2.0").
  repeat split; try reflexivity; [discriminate|]. intros M. apply compare_meets in M. discriminate.
Qed.
Print Assumptions C132_versions_refuted.
(** The version of a subproject is not looked at if the dependency is not required, or if the subproject has been configured before. *)
Theorem C132_subproject_versions_refuted : exists w k ops, k_version k <> None /\ ~ meets k (s_version a_sub) /\ (forall f o sp, subs w f o = Some sp -> s_version sp = s_version a_sub)
  /\ snd (dependency w None (not_required k) empty) = Ok (RDep own)
  /\ snd (dependency w None k (run w None ops empty)) = Ok (RDep own) /\ snd (dependency w None k empty) = Err.
Proof.
  exists w0, (with_version [B ">=3"] (with_fallback [B "sub"; B "foo_dep"] (plain_call [B "quux"]))), [Look (plain_call [B "foo"]); Look (with_fallback [B "sub"; B "foo_dep"] (plain_call [B "corge"]))].
  split; [discriminate|]. split; [intros M; apply compare_meets in M; discriminate|]. split.
  - intros f o sp. cbn. destruct (beqb f (B "foo") || beqb f (B "sub") || beqb f (B "zlib")); [intros [= <-]; reflexivity|discriminate].
  - repeat split; reflexivity.
Qed.
Print Assumptions C132_subproject_versions_refuted.
(** After a lookup without the keyword static, static: true gives what is not static; after static: true a lookup without it gives what is static. *)
Theorem C132_static_refuted : exists w n v,
  snd (dependency w None (with_static true (plain_call [n])) (run w None [Look (plain_call [n])] empty)) = Ok (RDep (package n false v))
  /\ snd (dependency w None (with_static true (plain_call [n])) empty) = Ok (RDep (package n true v))
  /\ snd (dependency w None (plain_call [n]) (run w None [Look (with_static true (plain_call [n]))] empty)) = Ok (RDep (package n true v))
  /\ snd (dependency w None (plain_call [n]) empty) = Ok (RDep (package n false v)).
Proof. exists w0, (B "zlib"), (B "1.3"). repeat split; reflexivity. Qed.
Print Assumptions C132_static_refuted.
(** A required dependency that is overridden with one that is not found, and frameworks on other systems, are not errors. *)
Theorem C132_required_refuted : exists w ops k d, required None k /\ snd (dependency w None k (run w None ops empty)) = Ok (RDep d) /\ dp_found d = false.
Proof.
  exists w0, [Override (B "zlib") {| dp_from := Nowhere (B "zlib"); dp_version := None; dp_found := false |} false], (plain_call [B "zlib"]),
    {| dp_from := Nowhere (B "zlib"); dp_version := None; dp_found := false |}. repeat split; [now left].
Qed.
Print Assumptions C132_required_refuted.
(** A version is asked of a name that threads were found for: that aborts. *)
Theorem C132_crash_refuted : exists w ops k, snd (dependency w None k (run w None ops empty)) = Crash.
Proof. exists w0, [Look (plain_call [B "bar"; B "threads"]); Look (not_required (plain_call [B "quux"; B "threads"]))], (with_version [B ">=1"] (plain_call [B "quux"])). reflexivity. Qed.
Print Assumptions C132_crash_refuted.

(** * C133: calling it again *)
Lemma cached_call w g k t n d m : k_names k = [n] -> ordinary n -> required g k \/ optional g k -> cache t (with_mode k) n = Some (d, m) ->
  k_version k = None \/ (exists v, dp_version d = Some v /\ meets k v) -> dependency w g k t = (t, Ok (RDep d)).
Proof.
  intros N O R Ec V.
  assert (Er : exists r, coerce_requirement g (k_required k) = Some r /\ r <> RSkip).
  { destruct R as [R|R]; [apply coerce_required in R|apply coerce_optional in R]; eexists; (split; [exact R|discriminate]). }
  destruct Er as (r & E & D). rewrite (dependency_lookup w g k t r) by (congruence || exact E || exact D).
  assert (Hv : version_ok (with_args k r) (dp_version d) = Ok true).
  { destruct V as [V|(v & -> & V)]; [unfold version_ok; cbn; now rewrite V|now apply version_meets]. }
  rewrite N. cbn [try_names]. rewrite one_ordinary by exact O. unfold get. cbn [x_mode start]. rewrite Ec, Hv. cbn. now rewrite andb_false_r.
Qed.
Lemma get_uncached w a al on n s x s' x' h : cache s (x_mode x) n = None -> get w a al on n s x = (s', x', Ok (Some h)) -> h_cached h = false.
Proof.
  intros Ec. unfold get. rewrite Ec. assert (T : forall q h, to_hit q = Ok (Some h) -> h_cached h = false).
  { intros [[[d m]|]| |] h0; cbn; try discriminate. now intros [= <-]. }
  destruct (override _ _ _) as [[d m]|]; [now intros [= _ _ <-]|].
  generalize (match x_fb x with Some f => Some f | None => match look n (provides w) with Some f => Some f | None => if al then Some [n] else None end end). intros fb.
  destruct fb as [[|fn f]|]; [discriminate| |].
  - match goal with |- context [if ?c then _ else _] => destruct c end.
    + destruct (fallback _ _ _ _ _) as [s1 q]. intros [= _ _ E]. now apply T in E.
    + destruct (system _ _ _ _ _) as [s1 q]. destruct q as [[q|]| |]; try (intros [= _ _ E]; now apply (T (Ok (Some q))) in E); try discriminate.
      destruct (fallback _ _ _ _ _) as [s2 q2]. intros [= _ _ E]. now apply T in E.
  - destruct (system _ _ _ _ _) as [s1 q]. intros [= _ _ E]. now apply T in E.
Qed.
Definition same_cache (s t : st) : Prop := c_static t = c_static s /\ c_shared t = c_shared s.
Lemma names_same w a al on names s x : same_cache s (fst (try_names w a al on names s x))
  /\ match snd (try_names w a al on names s x) with Ok (Some h) => like (x_mode x) (h_mode h) | _ => True end.
Proof.
  pose proof (try_names_inv w a (x_mode x) (same_cache s) (fun _ m => like (x_mode x) m)) as T.
  specialize (T ltac:(now intros t n H)). apply T; clear T.
  - intros t n o _ [H1 H2]. destruct (subproject_cases w a t n o) as [->|(sp & _ & _ & E1 & E2 & _)]; [now split|]. split; congruence.
  - intros t m n d m' L _ Ec _. exact (cache_mode _ _ _ _ _ _ L Ec).
  - intros t m d m' L _ Eo. exact (override_mode _ _ _ _ _ _ L Eo).
  - intros t n v vars d m L _ _ _. exact L.
  - intros n m v L _ _. exact L.
  - split; [|split]; auto.
  - now left.
  - now split.
Qed.
Lemma found_is_cached w g k s s' d n : k_names k = [n] -> ordinary n -> required g k \/ optional g k ->
  dependency w g k s = (s', Ok (RDep d)) -> dp_found d = true -> exists m, cache s' (with_mode k) n = Some (d, m).
Proof.
  intros N O R E F.
  assert (Er : exists r, coerce_requirement g (k_required k) = Some r /\ r <> RSkip).
  { destruct R as [R|R]; [apply coerce_required in R|apply coerce_optional in R]; eexists; (split; [exact R|discriminate]). }
  destruct Er as (r & Er & D). rewrite (dependency_lookup w g k s r) in E by (congruence || exact Er || exact D).
  destruct (cache s (with_mode k) n) as [[d0 m0]|] eqn:Ec.
  - (* it was there before *)
    assert (G : forall al on, try_names w (with_args k r) al on [n] s (start k r)
       = (s, match version_ok (with_args k r) (dp_version d0) with Ok true => Ok (Some {| h_dep := d0; h_mode := m0; h_cached := true |}) | Ok false => Ok None | Err => Err | Crash => Crash end)).
    { intros al on. cbn [try_names]. rewrite one_ordinary by exact O. unfold get. cbn [x_mode start]. rewrite Ec. now destruct (version_ok _ _) as [[]| |]. }
    rewrite N, !G in E. unfold finish in E. destruct (version_ok (with_args k r) (dp_version d0)) as [[]| |]; cbn in E; try discriminate.
    + injection E as <- <-. rewrite andb_false_r. eauto.
    + assert (E' : (match r with RRequired => (s, Err) | _ => (s, Ok (if k_disabler k then RDisabler else RDep (not_there (last (k_names k) [])))) end) = (s', Ok (RDep d))).
      { destruct (may_fall_back k r); [try rewrite G in E|]; exact E. }
      destruct r; try discriminate; destruct (k_disabler k); try discriminate; injection E' as <- <-; discriminate.
  - (* it is new *)
    assert (G : forall al on t h t', same_cache s t -> try_names w (with_args k r) al on [n] t (start k r) = (t', Ok (Some h)) -> same_cache s t' /\ h_cached h = false /\ like (with_mode k) (h_mode h)).
    { intros al on t h t' [S1 S2] Et. pose proof (names_same w (with_args k r) al on [n] t (start k r)) as [[H1 H2] H3]. rewrite Et in H1, H2, H3. cbn in H1, H2, H3.
      split; [split; congruence|]. split; [|exact H3]. cbn [try_names] in Et. rewrite one_ordinary in Et by exact O.
      destruct (get w (with_args k r) al on n t (start k r)) as [[t1 x1] q] eqn:Eg. destruct q as [[h'|]| |]; try discriminate. injection Et as <- <-.
      apply get_uncached in Eg; [exact Eg|]. cbn. unfold cache in *. rewrite S1, S2. exact Ec. }
    assert (H : exists t h, same_cache s t /\ h_cached h = false /\ like (with_mode k) (h_mode h) /\ (s', Ok (RDep d)) = finish k r (t, Ok (Some h))).
    { pose proof (names_same w (with_args k r) false false (k_names k) s (start k r)) as [Sc _].
      destruct (try_names w (with_args k r) false false (k_names k) s (start k r)) as [s1 r1] eqn:E1. cbn in Sc. rewrite N in E1.
      destruct r1 as [[h|]| |]; try discriminate.
      - apply G in E1; [|now split]. exists s1, h. destruct E1 as (? & ? & ?). do 3 (split; [assumption|]). symmetry. exact E.
      - destruct (may_fall_back k r).
        + rewrite N in E. destruct (try_names w (with_args k r) true true [n] s1 (start k r)) as [s2 r2] eqn:E2. destruct r2 as [[h|]| |]; try discriminate.
          * apply G in E2; [|exact Sc]. exists s2, h. destruct E2 as (? & ? & ?). do 3 (split; [assumption|]). symmetry. exact E.
          * exfalso. unfold finish in E. destruct r; try discriminate; destruct (k_disabler k); try discriminate; injection E as _ <-; discriminate.
        + exfalso. unfold finish in E. destruct r; try discriminate; destruct (k_disabler k); try discriminate; injection E as _ <-; discriminate. }
    destruct H as (t & h & [S1 S2] & Hc & L & E'). cbn in E'. injection E' as -> ->. rewrite F, Hc, N. cbn. unfold cache in *. unfold like in L.
    destruct (with_mode k); cbn in *.
    + destruct (look n (c_static s)) eqn:El; [discriminate|]. destruct (h_mode h); cbn; rewrite ?beqb_refl; eauto. rewrite S1, El. eauto.
    + destruct L as [->|[=]]. cbn. rewrite beqb_refl. eauto.
    + destruct L as [->|[=]]. cbn. rewrite beqb_refl. eauto.
Qed.
Lemma remember_other names m d n : ~ In n names -> forall s, look n (c_static (remember names m d s)) = look n (c_static s) /\ look n (c_shared (remember names m d s)) = look n (c_shared s).
Proof.
  induction names as [|x names IH]; intros H s; [auto|]. cbn [remember]. 
  match goal with |- context [remember names m d ?t] => destruct (IH (fun Hi => H (or_intror Hi)) t) as [-> ->] end.
  assert (Hx : beqb n x = false) by (destruct (beqb_spec n x) as [->|]; [destruct H; now left|reflexivity]).
  cbn. destruct m; cbn; rewrite ?Hx; auto.
Qed.

(** A dependency that was found is found again, whatever is done in between with other names, and nothing is asked or configured for it. *)
Theorem C133_found_again_partial : forall w g k s s' d n more, k_names k = [n] -> ordinary n -> required g k \/ optional g k ->
  dependency w g k s = (s', Ok (RDep d)) -> dp_found d = true ->
  k_version k = None \/ (exists v, dp_version d = Some v /\ meets k v) ->
  (forall k', In (Look k') more -> ~ In n (k_names k')) ->
  dependency w g k (run w g more s') = (run w g more s', Ok (RDep d)).
Proof.
  intros w g k s s' d n more N O R E F V Hm. destruct (found_is_cached w g k s s' d n N O R E F) as (m & Ec).
  apply (cached_call w g k _ n d m N O R); [|exact V].
  assert (H : look n (c_static (run w g more s')) = look n (c_static s') /\ look n (c_shared (run w g more s')) = look n (c_shared s')).
  { apply (run_inv w g (fun t => look n (c_static t) = look n (c_static s') /\ look n (c_shared t) = look n (c_shared s'))); [auto| |auto].
    intros t k' Hi. apply (state_inv w g k' (fun t => look n (c_static t) = look n (c_static s') /\ look n (c_shared t) = look n (c_shared s'))).
    - intros u x H. exact H.
    - intros r u x o _ _ H. destruct (subproject_cases w (with_args k' r) u x o) as [->|(sp & _ & _ & -> & -> & _)]; exact H.
    - intros m' e u [H1 H2]. destruct (remember_other (k_names k') m' e n (Hm k' Hi) u) as [-> ->]. now split. }
  unfold cache in *. destruct H as [-> ->]. exact Ec.
Qed.
Print Assumptions C133_found_again_partial.
Example ex_found_again : let k := with_version [B ">=1"] (plain_call [B "zlib"]) in
  let more := [Look (plain_call [B "foo"]); Override (B "zlib") own false] in
  dependency w0 None k (run w0 None more (fst (dependency w0 None k empty))) = (run w0 None more (fst (dependency w0 None k empty)), Ok (RDep (package (B "zlib") false (B "1.3")))).
Proof.
  cbv zeta. apply (C133_found_again_partial w0 None _ empty _ _ (B "zlib")); try reflexivity; [ordinaries|left; now left| |].
  - right. exists (B "1.3"). split; [reflexivity|]. apply compare_meets. reflexivity.
  - intros k' [[= <-]|[[=]|[]]] [[=]|[]].
Qed.

(** A subproject that was configured is not configured again. *)
Lemma configured_stays w a s n f o vars : look n (configured s) = Some vars ->
  exists l, events (fst (subproject w a s f o)) = events s ++ l /\ (forall o', ~ In (Configure n o') l) /\ look n (configured (fst (subproject w a s f o))) <> None.
Proof.
  intros Hc. destruct (subproject_cases w a s f o) as [->|(sp & Hf & _ & _ & _ & _ & _ & E5 & E6)].
  - exists []. rewrite app_nil_r. split; [reflexivity|]. split; [intros o' []|congruence].
  - exists [Configure f o]. split; [exact E6|]. split; [intros o' [[= -> _]|[]]; congruence|]. destruct E5 as [-> | ->]; [congruence|]. cbn. destruct (beqb n f); congruence.
Qed.
Theorem C133_not_configured_again : forall w g ops more n, is_configured (run w g ops empty) n ->
  exists l, events (run w g more (run w g ops empty)) = events (run w g ops empty) ++ l /\ forall o, ~ In (Configure n o) l.
Proof.
  intros w g ops more n (vars & Hi). set (s0 := run w g ops empty) in *.
  assert (H : exists l, events (run w g more s0) = events s0 ++ l /\ (forall o, ~ In (Configure n o) l) /\ look n (configured (run w g more s0)) <> None).
  2:{ destruct H as (l & H1 & H2 & _). now exists l. }
  set (P := fun t => exists l, events t = events s0 ++ l /\ (forall o, ~ In (Configure n o) l) /\ look n (configured t) <> None).
  apply (run_inv w g P).
  - exists []. rewrite app_nil_r. split; [reflexivity|]. split; [intros o []|]. destruct (look_some n (configured s0) vars Hi) as (u & ->). discriminate.
  - intros t k _. apply (state_inv w g k P).
    + intros u x (l & E & H1 & H2). exists (l ++ [AskPkg x]). cbn. rewrite E, app_assoc. split; [reflexivity|]. split; [|exact H2].
      intros o H. apply in_app_or in H. destruct H as [H|[[=]|[]]]. exact (H1 o H).
    + intros r u f o _ _ (l & E & H1 & H2). destruct (look n (configured u)) as [vs|] eqn:Ev; [|congruence].
      destruct (configured_stays w (with_args k r) u n f o vs Ev) as (l2 & E2 & H3 & H4). exists (l ++ l2). rewrite E2, E, app_assoc. split; [reflexivity|]. split; [|exact H4].
      intros o' H. apply in_app_or in H. destruct H as [H|H]; [exact (H1 o' H)|exact (H3 o' H)].
    + intros m d u (l & E & H1 & H2). unfold P. destruct (remember_rest (k_names k) m d u) as (_ & _ & -> & ->). now exists l.
  - intros t x d b _ (l & E & H1 & H2). now exists l.
Qed.
Print Assumptions C133_not_configured_again.
(** If all subprojects can be configured, and no call asks for versions, each subproject is configured once. *)
Definition configures (e : event) : list bytes := match e with Configure n _ => [n] | _ => [] end.
Theorem C133_configured_once_partial : forall w g ops, (forall n o sp, subs w n o = Some sp -> s_ok sp = true) ->
  (forall k, In (Look k) ops -> k_version k = None) -> NoDup (flat_map configures (events (run w g ops empty))).
Proof.
  intros w g ops Hok Hv. set (P := fun t => NoDup (flat_map configures (events t)) /\ forall n, In n (flat_map configures (events t)) -> look n (configured t) <> None).
  enough (H : P (run w g ops empty)) by apply H. apply (run_inv w g P).
  - split; [constructor|intros n []].
  - intros t k Hk. apply (state_inv w g k P).
    + intros u x [H1 H2]. unfold P. cbn. rewrite flat_map_app. cbn. rewrite app_nil_r. now split.
    + intros r u f o _ _ [H1 H2]. unfold subproject. destruct (look f (configured u)) eqn:El; [now split|]. destruct (subs w f o) as [sp|] eqn:Es; [|now split].
      rewrite (Hok f o sp Es). cbn [a_versions with_args]. rewrite (Hv k Hk). cbn [andb fst events configured].
      assert (Nf : ~ In f (flat_map configures (events u))) by (intros Hf; apply (H2 f Hf); exact El).
      split.
      * cbn. rewrite flat_map_app. cbn. apply NoDup_rev in H1. rewrite <- (rev_involutive (flat_map configures (events u) ++ [f])). apply NoDup_rev. rewrite rev_app_distr. cbn. constructor; [now rewrite <- in_rev|exact H1].
      * intros n Hn. cbn in Hn |- *. rewrite flat_map_app in Hn. apply in_app_or in Hn. destruct (beqb_spec n f) as [->|Nn]; [discriminate|].
        destruct Hn as [Hn|[Hn|[]]]; [now apply H2|congruence].
    + intros m d u H. unfold P. destruct (remember_rest (k_names k) m d u) as (_ & _ & -> & ->). exact H.
  - intros t x d b _ H. exact H.
Qed.
Print Assumptions C133_configured_once_partial.
Example ex_configured_once : flat_map configures (events (run w0 None [Look (plain_call [B "foo"]); Look (with_fallback [B "foo"; B "foo_dep"] (plain_call [B "quux"]))] empty)) = [B "foo"]
  /\ is_configured (run w0 None [Look (plain_call [B "foo"])] empty) (B "foo").
Proof. split; [reflexivity|]. eexists. left. reflexivity. Qed.

(** A dependency that is overridden with a version that does not suit is found by the first call and not by the second. *)
Theorem C133_found_again_refuted : exists w ops k, required None k /\ snd (dependency w None k (run w None ops empty)) = Ok (RDep own)
  /\ snd (dependency w None k (run w None (ops ++ [Look k]) empty)) = Err.
Proof. exists w0, [Override (B "foo") own false], (with_version [B ">=3"] (plain_call [B "foo"])). repeat split; try reflexivity. now left. Qed.
Print Assumptions C133_found_again_refuted.
(** What is found for several names is found for each of them afterwards. *)
Theorem C133_other_names_refuted : exists w k1 k2, required None k2 /\ snd (dependency w None k2 empty) = Err
  /\ snd (dependency w None k2 (run w None [Look k1] empty)) = Ok (RDep (package (B "zlib") false (B "1.3"))) /\ k_names k2 = [B "quux"].
Proof. exists w0, (plain_call [B "quux"; B "zlib"]), (plain_call [B "quux"]). repeat split; try reflexivity. now left. Qed.
Print Assumptions C133_other_names_refuted.
(** A package that is too old for a first call keeps a second call, which asks for a newer version and has a fallback, from using it. *)
Theorem C133_fallback_refuted : exists w k k', required None k /\ snd (dependency w None k empty) = Ok (RDep own)
  /\ snd (dependency w None k (run w None [Look k'] empty)) = Err.
Proof.
  exists w0, (with_version [B ">=2"] (with_fallback [B "sub"; B "foo_dep"] (plain_call [B "zlib"]))), (plain_call [B "zlib"]). repeat split; try reflexivity. now left.
Qed.
Print Assumptions C133_fallback_refuted.
(** A subproject that fails is configured a second time by the same call, and what it overrode before it failed is used. *)
Theorem C133_failing_subproject_refuted : exists w k k', (forall f o sp, subs w f o = Some sp -> s_ok sp = false)
  /\ flat_map configures (events (fst (dependency w None k empty))) = [B "sub"; B "sub"]
  /\ required None k' /\ snd (dependency w None k' empty) = Ok (RDep own).
Proof.
  exists (a_world Nopromote [] [] false), (with_fallback [B "sub"; B "foo_dep"] (plain_call [B "quux"])), (with_fallback [B "sub"; B "foo_dep"] (plain_call [B "foo"])).
  split; [|repeat split; try reflexivity; now left].
  intros f o sp. cbn. destruct (beqb f (B "foo") || beqb f (B "sub") || beqb f (B "zlib")); [intros [= <-]; reflexivity|discriminate].
Qed.
Print Assumptions C133_failing_subproject_refuted.
Example ex_no_fallback : let k := not_required (plain_call [B "foo"; B "curses"]) in
  ~ falls_back None k /\ events (fst (dependency w0 None k empty)) = map AskPkg [B "foo"; B "ncurses"; B "ncurses"].
Proof. split; [|reflexivity]. intros [[=]|[_ [H|(n & l & [=])]]]. destruct H as [[=]|[[=]|(fo & [=] & _)]]. Qed.
Example ex_disabled : disabled (Some Disabled) {| k_names := [B "foo"]; k_required := Some (KFeature Auto); k_version := None; k_static := None; k_modules := None; k_fallback := None; k_allow := None; k_defaults := []; k_disabler := false |}.
Proof. exists Auto. split; [reflexivity|]. now constructor. Qed.
