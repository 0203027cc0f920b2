(** Proofs about the lookup of dependencies. *)
From Coq Require Import Lia.
From Verif Require Import Base M_Version S_Version P_Version M_Feature S_Feature P_Feature M_Lookup S_Lookup.

Definition with_mode (k : call) : lmode := match k_static k with Some true => LStatic | Some false => LShared | None => LDefault end.
Definition with_args (k : call) (r : requirement) : args :=
  {| a_names := k_names k; a_req := r; a_versions := k_version k; a_modules := k_modules k; a_defaults := k_defaults k |}.
Definition with_fb (k : call) (r : requirement) : option (list bytes) := if may_fall_back k r then k_fallback k else None.

Lemma look_in {A} n (l : list (bytes * A)) v : look n l = Some v -> In (n, v) l.
Proof.
  induction l as [|[k u] l IH]; cbn; [discriminate|]. destruct (beqb_spec n k) as [->|]; [intros [= ->]; now left|right; now apply IH].
Qed.
Lemma look_none {A} n (l : list (bytes * A)) : (forall v, ~ In (n, v) l) -> look n l = None.
Proof. intros H. destruct (look n l) eqn:E; [|reflexivity]. now destruct (H a (look_in _ _ _ E)). Qed.
Lemma look_some {A} n (l : list (bytes * A)) v : In (n, v) l -> exists u, look n l = Some u.
Proof.
  induction l as [|[k u] l IH]; [intros []|]. intros [[= -> ->]|H]; cbn; [rewrite beqb_refl; eauto|].
  destruct (beqb_spec n k); eauto.
Qed.
Lemma mem_spec n l : mem n l = true <-> In n l.
Proof.
  unfold mem. rewrite existsb_exists. split.
  - intros (x & H & E). destruct (beqb_spec n x); [now subst|discriminate].
  - intros H. exists n. split; [exact H|apply beqb_refl].
Qed.

Lemma compare_meets v reqs : version_compare v reqs = Some true <-> reqs <> [] /\ Forall (requirement_holds v) reqs.
Proof.
  destruct reqs as [|q reqs]; [split; [discriminate|intros [H _]; congruence]|].
  destruct (C10_requirements_partial v (q :: reqs) ltac:(discriminate)) as (r & E & H). rewrite E. split.
  - intros [= ->]. split; [discriminate|now apply H].
  - intros [_ F]. f_equal. now apply H.
Qed.
Lemma compare_total v reqs : exists b, version_compare v reqs = Some b.
Proof.
  destruct reqs as [|q reqs]; [exists false; reflexivity|].
  destruct (C10_requirements_partial v (q :: reqs) ltac:(discriminate)) as (r & E & _). eauto.
Qed.
Lemma version_meets k r v : version_ok (with_args k r) (Some v) = Ok true <-> meets k v.
Proof.
  unfold version_ok, meets; cbn. destruct (k_version k) as [reqs|]; [|tauto].
  rewrite <- compare_meets. destruct (version_compare v reqs); split; congruence.
Qed.
Lemma version_fails k r v : ~ meets k v -> version_ok (with_args k r) (Some v) = Ok false.
Proof.
  intros H. destruct (version_ok (with_args k r) (Some v)) as [[]| |] eqn:E; [|reflexivity|..].
  - now destruct (H (proj1 (version_meets k r v) E)).
  - unfold version_ok in E; cbn in E. destruct (k_version k) as [reqs|]; [|discriminate]. destruct (compare_total v reqs) as [b Eb]. now rewrite Eb in E.
  - unfold version_ok in E; cbn in E. destruct (k_version k) as [reqs|]; [|discriminate]. destruct (compare_total v reqs) as [b Eb]. now rewrite Eb in E.
Qed.

Section INV.
Variables (w : world) (a : args) (m0 : lmode).
Definition like (m : lmode) : Prop := m = m0 \/ m0 = LDefault.
Variable P : st -> Prop.
Variable Q : dep -> lmode -> Prop.
Hypothesis Hask : forall s n, P s -> P (note (AskPkg n) s).
Hypothesis Hsub : forall s n o, wrap w <> Nofallback -> P s -> P (fst (subproject w a s n o)).
Hypothesis Hcache : forall s m n d m', like m -> P s -> cache s m n = Some (d, m') -> version_ok a (dp_version d) = Ok true -> Q d m'.
Hypothesis Hover : forall s m d m', like m -> P s -> override s m (a_names a) = Some (d, m') -> Q d m'.
Hypothesis Hvar : forall s n v vars d m, like m -> P s -> look n (configured s) = Some vars -> look v vars = Some (VDep d) -> Q d m.
Hypothesis Hsys : forall n m v, like m -> pkg w n (match m with LStatic => true | _ => false end) = Some v -> version_ok a (Some v) = Ok true ->
  Q {| dp_from := FromSystem n (match m with LStatic => true | _ => false end); dp_version := Some v; dp_found := true |} m.
Definition good (r : out (option (dep * lmode))) : Prop := match r with Ok (Some (d, m)) => Q d m | _ => True end.
Definition good_hit (r : out (option hit)) : Prop := match r with Ok (Some h) => Q (h_dep h) (h_mode h) | _ => True end.

Lemma to_hit_good r : good r -> good_hit (to_hit r).
Proof. destruct r as [[[d m]|]| |]; cbn; tauto. Qed.
Lemma cache_mode s m n d m' : like m -> cache s m n = Some (d, m') -> like m'.
Proof.
  unfold like, cache. intros [->|E]; [|tauto]. destruct m0; cbn; [tauto| |].
  - destruct (look n (c_static s)); [intros [= _ <-]; tauto|discriminate].
  - destruct (look n (c_shared s)); [intros [= _ <-]; tauto|discriminate].
Qed.
Lemma override_mode s m ns d m' : like m -> override s m ns = Some (d, m') -> like m'.
Proof.
  unfold like. intros [->|E]; [|tauto]. induction ns as [|n ns IH]; [discriminate|]. cbn. destruct m0; cbn; [tauto| |].
  - destruct (look n (o_static s)); [intros [= _ <-]; tauto|exact IH].
  - destruct (look n (o_shared s)); [intros [= _ <-]; tauto|exact IH].
Qed.
Lemma fallback_inv s m fb : like m -> P s -> P (fst (fallback w a s m fb)) /\ good (snd (fallback w a s m fb)).
Proof.
  intros L Hs. unfold fallback.
  assert (D : wrap w = Nofallback \/ wrap w <> Nofallback) by (destruct (wrap w); auto; right; discriminate).
  destruct D as [->|D]; [split; [exact Hs|exact I]|].
  match goal with |- P (fst (match wrap w with Nopromote => ?X | _ => _ end)) /\ _ => enough (H : P (fst X) /\ good (snd X)) by (destruct (wrap w); congruence || exact H) end.
  assert (G : forall n o, P (fst (subproject w a s n o))) by (intros; now apply Hsub).
  destruct fb as [|n [|v [|v2 fb]]].
  - split; [exact Hs|exact I].
  - specialize (G n (fallback_options a m)). destruct (subproject _ _ _ _ _) as [s' b]. cbn in G. destruct b; [|split; [exact G|exact I]].
    split; [exact G|]. cbn. destruct (override s' m (a_names a)) as [[d m']|] eqn:E; [|exact I]. exact (Hover _ _ _ _ L G E).
  - specialize (G n (fallback_options a m)). destruct (subproject _ _ _ _ _) as [s' b]. cbn in G. destruct b; [|split; [exact G|exact I]].
    destruct (look n (configured s')) as [vars|] eqn:E; [|split; [exact G|exact I]]. destruct (look v vars) as [[d|]|] eqn:E2; try (split; [exact G|exact I]).
    split; [exact G|]. exact (Hvar _ _ _ _ _ _ L G E E2).
  - split; [exact Hs|exact I].
Qed.
Lemma system_inv s m n : like m -> P s -> P (fst (system w a s m n)) /\ good (snd (system w a s m n)).
Proof.
  intros L Hs. unfold system. destruct (pkg w n _) as [v|] eqn:E; [|split; [now apply Hask|exact I]].
  destruct (version_ok a (Some v)) as [[]| |] eqn:E2; (split; [now apply Hask|]); try exact I. exact (Hsys _ _ _ L E E2).
Qed.
Lemma get_inv al on n s x : like (x_mode x) -> P s ->
  let '(s', x', r) := get w a al on n s x in P s' /\ like (x_mode x') /\ good_hit r.
Proof.
  intros L Hs. unfold get. destruct (cache s (x_mode x) n) as [[d m]|] eqn:Ec.
  { split; [exact Hs|]. split; [exact (cache_mode _ _ _ _ _ L Ec)|]. destruct (version_ok a (dp_version d)) as [[]| |] eqn:E; try exact I. exact (Hcache _ _ _ _ _ L Hs Ec E). }
  destruct (override s (x_mode x) (a_names a)) as [[d m]|] eqn:Eo.
  { split; [exact Hs|]. split; [exact (override_mode _ _ _ _ _ L Eo)|]. exact (Hover _ _ _ _ L Hs Eo). }
  generalize (match x_fb x with Some f => Some f | None => match look n (provides w) with Some f => Some f | None => if al then Some [n] else None end end). intros fb.
  destruct fb as [[|fn f]|].
  - split; [exact Hs|]. split; [exact L|exact I].
  - match goal with |- context [if ?b then _ else _] => destruct b end.
    + pose proof (fallback_inv s (x_mode x) (fn :: f) L Hs) as [H1 H2]. destruct (fallback _ _ _ _ _) as [s' r]. split; [exact H1|]. split; [exact L|now apply to_hit_good].
    + pose proof (system_inv s (x_mode x) n L Hs) as [H1 H2]. destruct (system _ _ _ _ _) as [s' r]. cbn in H1, H2.
      destruct r as [[h|]| |]; [split; [exact H1|]; split; [exact L|now apply to_hit_good]| |split; [exact H1|]; split; [exact L|exact I]..].
      pose proof (fallback_inv s' (x_mode x) (fn :: f) L H1) as [H3 H4]. destruct (fallback _ _ _ _ _) as [s'' r']. split; [exact H3|]. split; [exact L|now apply to_hit_good].
  - pose proof (system_inv s (x_mode x) n L Hs) as [H1 H2]. destruct (system _ _ _ _ _) as [s' r]. split; [exact H1|]. split; [exact L|now apply to_hit_good].
Qed.
Definition special_ok (names : list bytes) : Prop :=
  (In (B "threads") names -> forall m, like m -> Q {| dp_from := Threads; dp_version := None; dp_found := true |} m)
  /\ (In (B "appleframeworks") names -> forall ms, a_modules a = Some ms -> darwin w = true -> forall m, like m -> Q {| dp_from := Frameworks ms; dp_version := None; dp_found := true |} m)
  /\ ((In (B "appleframeworks") names /\ darwin w = false \/ In [] names /\ a_req a <> RRequired) -> forall m, like m -> Q {| dp_from := Nowhere []; dp_version := None; dp_found := false |} m).
Lemma one_name_inv al on n s x : special_ok [n] -> like (x_mode x) -> P s -> P (fst (one_name w a al on n s x)) /\ good_hit (snd (one_name w a al on n s x)).
Proof.
  intros (S1 & S2 & S3) L Hs. unfold one_name.
  destruct (beqb_spec n (B "threads")) as [->|_]; [split; [exact Hs|]; cbn; apply S1; [now left|exact L]|].
  destruct (beqb_spec n (B "curses")) as [->|_].
  { pose proof (get_inv al on (B "ncurses") s x L Hs) as H. destruct (get _ _ _ _ _ _ _) as [[s1 x1] r]. destruct H as (H1 & L1 & H2).
    destruct r as [[h|]| |]; [split; assumption| |split; [exact H1|exact I]..].
    pose proof (get_inv al on (B "ncurses") s1 x1 L1 H1) as H. destruct (get _ _ _ _ _ _ _) as [[s2 x2] r2]. tauto. }
  destruct (beqb_spec n (B "appleframeworks")) as [->|_].
  { destruct (a_modules a) as [ms|] eqn:Em; [|split; [exact Hs|exact I]]. split; [exact Hs|]. cbn. destruct (darwin w) eqn:Ed.
    - apply S2; [now left|reflexivity|reflexivity|exact L].
    - apply S3; [|exact L]. left. split; [now left|reflexivity]. }
  destruct (beqb_spec n []) as [->|_].
  { destruct (a_req a) eqn:Er; (split; [exact Hs|]); try exact I; (apply S3; [|exact L]); right; (split; [now left|congruence]). }
  pose proof (get_inv al on n s x L Hs) as H. destruct (get _ _ _ _ _ _ _) as [[s1 x1] r]. tauto.
Qed.
Lemma try_names_inv al on names : special_ok names -> forall s x, like (x_mode x) -> P s ->
  P (fst (try_names w a al on names s x)) /\ good_hit (snd (try_names w a al on names s x)).
Proof.
  induction names as [|n names IH]; intros (S1 & S2 & S3) s x L Hs; [split; [exact Hs|exact I]|]. cbn [try_names].
  assert (So : special_ok [n]).
  { split; [|split].
    - intros [->|[]]. apply S1. now left.
    - intros [->|[]]. apply S2. now left.
    - intros [[[->|[]] ?]|[[->|[]] ?]]; apply S3; [left|right]; (split; [now left|assumption]). }
  pose proof (one_name_inv al on n s x So L Hs) as [H1 H2]. destruct (one_name _ _ _ _ _ _ _) as [s' r]. cbn in H1, H2.
  destruct r as [[h|]| |]; [split; assumption| |split; [exact H1|exact I]..].
  apply IH; [|exact L|exact H1]. split; [|split].
  - intros H. apply S1. now right.
  - intros H. apply S2. now right.
  - intros [[H ?]|[H ?]]; apply S3; [left|right]; (split; [now right|assumption]).
Qed.
End INV.

(** the whole lookup *)
Section WHOLE.
Variables (w : world) (g : option state) (k : call).
Variable P : st -> Prop.
Variable Q : dep -> lmode -> Prop.
Definition not_there (n : bytes) : dep := {| dp_from := Nowhere n; dp_version := None; dp_found := false |}.
Lemma dependency_inv s :
  (forall r, coerce_requirement g (k_required k) = Some r -> r <> RSkip ->
     let a := with_args k r in
     (forall s n, P s -> P (note (AskPkg n) s))
     /\ (forall s n o, wrap w <> Nofallback -> P s -> P (fst (subproject w a s n o)))
     /\ (forall s m n d m', like (with_mode k) m -> P s -> cache s m n = Some (d, m') -> version_ok a (dp_version d) = Ok true -> Q d m')
     /\ (forall s m d m', like (with_mode k) m -> P s -> override s m (k_names k) = Some (d, m') -> Q d m')
     /\ (forall s n v vars d m, like (with_mode k) m -> P s -> look n (configured s) = Some vars -> look v vars = Some (VDep d) -> Q d m)
     /\ (forall n m v, like (with_mode k) m -> pkg w n (match m with LStatic => true | _ => false end) = Some v -> version_ok a (Some v) = Ok true ->
           Q {| dp_from := FromSystem n (match m with LStatic => true | _ => false end); dp_version := Some v; dp_found := true |} m)
     /\ special_ok w a (with_mode k) Q (k_names k)
     /\ (r <> RRequired -> forall n, exists m, Q (not_there n) m)) ->
  (forall n, disabled g k -> exists m, Q (not_there n) m) ->
  (forall m d s, Q d m -> dp_found d = true -> P s -> P (remember (k_names k) m d s)) ->
  P s -> P (fst (dependency w g k s)) /\ forall d, snd (dependency w g k s) = Ok (RDep d) -> exists m, Q d m.
Proof.
  intros Hall Hskip Hrem Hs. unfold dependency. destruct (k_names k) as [|first names0] eqn:En; [split; [exact Hs|discriminate]|].
  rewrite <- En in *. destruct (coerce_requirement g (k_required k)) as [r|] eqn:Er; [|split; [exact Hs|discriminate]].
  destruct (C90_requirements _ _ _ Er) as (R1 & _ & _).
  assert (Hskip' : r = RSkip -> disabled g k) by (intros E; exact (proj1 R1 E)). clear R1.
  assert (Main : r <> RSkip -> P (fst (
     let '(s1, r1) := try_names w (with_args k r) false false (k_names k) s {| x_mode := with_mode k; x_fb := with_fb k r |} in
     let '(s2, r2) := match r1 with Ok None => if may_fall_back k r then try_names w (with_args k r) true true (k_names k) s1 {| x_mode := with_mode k; x_fb := with_fb k r |} else (s1, Ok None) | _ => (s1, r1) end in
     match r2 with
     | Err => (s2, Err) | Crash => (s2, Crash)
     | Ok None => match r with RRequired => (s2, Err) | _ => (s2, Ok (if k_disabler k then RDisabler else RDep (not_there (last (k_names k) first)))) end
     | Ok (Some h) => ((if dp_found (h_dep h) && negb (h_cached h) then remember (k_names k) (h_mode h) (h_dep h) s2 else s2), Ok (RDep (h_dep h)))
     end)) /\ forall d, snd (
     let '(s1, r1) := try_names w (with_args k r) false false (k_names k) s {| x_mode := with_mode k; x_fb := with_fb k r |} in
     let '(s2, r2) := match r1 with Ok None => if may_fall_back k r then try_names w (with_args k r) true true (k_names k) s1 {| x_mode := with_mode k; x_fb := with_fb k r |} else (s1, Ok None) | _ => (s1, r1) end in
     match r2 with
     | Err => (s2, Err) | Crash => (s2, Crash)
     | Ok None => match r with RRequired => (s2, Err) | _ => (s2, Ok (if k_disabler k then RDisabler else RDep (not_there (last (k_names k) first)))) end
     | Ok (Some h) => ((if dp_found (h_dep h) && negb (h_cached h) then remember (k_names k) (h_mode h) (h_dep h) s2 else s2), Ok (RDep (h_dep h)))
     end) = Ok (RDep d) -> exists m, Q d m).
  { intros Hr. destruct (Hall r eq_refl Hr) as (A1 & A2 & A3 & A4 & A5 & A6 & A7 & A8).
    pose proof (try_names_inv w (with_args k r) (with_mode k) P Q A1 A2 A3 A4 A5 A6) as T.
    pose proof (T false false (k_names k) A7 s {| x_mode := with_mode k; x_fb := with_fb k r |} (or_introl eq_refl) Hs) as [T1 T2].
    destruct (try_names w (with_args k r) false false _ s _) as [s1 r1]. cbn in T1, T2.
    assert (H2 : exists s2 r2, match r1 with Ok None => if may_fall_back k r then try_names w (with_args k r) true true (k_names k) s1 {| x_mode := with_mode k; x_fb := with_fb k r |} else (s1, Ok None) | _ => (s1, r1) end = (s2, r2) /\ P s2 /\ good_hit Q r2).
    { destruct r1 as [[h|]| |]; [do 2 eexists; split; [reflexivity|]; split; assumption| |do 2 eexists; split; [reflexivity|]; split; assumption..].
      destruct (may_fall_back k r); [|do 2 eexists; split; [reflexivity|]; split; assumption].
      pose proof (T true true (k_names k) A7 s1 {| x_mode := with_mode k; x_fb := with_fb k r |} (or_introl eq_refl) T1) as [T3 T4].
      destruct (try_names w (with_args k r) true true _ s1 _) as [s2 r2]. do 2 eexists; split; [reflexivity|]; split; assumption. }
    destruct H2 as (s2 & r2 & -> & P2 & G2). destruct r2 as [[h|]| |]; cbn in *.
    - split; [|intros d [= <-]; eexists; exact G2]. destruct (dp_found (h_dep h)) eqn:Ef, (h_cached h); cbn; try exact P2. now apply Hrem.
    - destruct r; [congruence|split; [exact P2|discriminate]|]. split; [exact P2|]. destruct (k_disabler k); [discriminate|]. intros d [= <-]. apply A8. discriminate.
    - split; [exact P2|discriminate].
    - split; [exact P2|discriminate]. }
  destruct r.
  - split; [exact Hs|]. cbn. intros d [= <-]. apply Hskip. now apply Hskip'.
  - apply Main. discriminate.
  - apply Main. discriminate.
Qed.
End WHOLE.

Lemma look_first {A} n (l1 l2 : list (bytes * A)) d : (forall e, ~ In (n, e) l1) -> look n (l1 ++ (n, d) :: l2) = Some d.
Proof.
  induction l1 as [|[m e] l1 IH]; intros H; cbn; [now rewrite beqb_refl|].
  destruct (beqb_spec n m) as [->|]; [destruct (H e); now left|]. apply IH. intros e' Hi. apply (H e'). now right.
Qed.
Lemma look_app {A} n (l1 l2 : list (bytes * A)) : look n (l1 ++ l2) = match look n l1 with Some d => Some d | None => look n l2 end.
Proof. induction l1 as [|[m e] l1 IH]; cbn; [reflexivity|]. now destruct (beqb n m). Qed.

(** requirements *)
Lemma coerce_required g k : required g k <-> coerce_requirement g (k_required k) = Some RRequired.
Proof.
  split.
  - intros [E|[E|(fo & E & Hs)]]; rewrite E; cbn; [reflexivity|reflexivity|]. apply seen_fun in Hs. now rewrite <- Hs.
  - intros E. destruct (C90_requirements _ _ _ E) as (_ & H & _). now apply H.
Qed.
Lemma coerce_optional g k : optional g k <-> coerce_requirement g (k_required k) = Some RAuto.
Proof.
  split.
  - intros [E|(fo & E & Hs)]; rewrite E; cbn; [reflexivity|]. apply seen_fun in Hs. now rewrite <- Hs.
  - intros E. destruct (C90_requirements _ _ _ E) as (_ & _ & H). now apply H.
Qed.
Lemma coerce_disabled g k : disabled g k <-> coerce_requirement g (k_required k) = Some RSkip.
Proof.
  split.
  - intros (fo & E & Hs); rewrite E; cbn. apply seen_fun in Hs. now rewrite <- Hs.
  - intros E. destruct (C90_requirements _ _ _ E) as (H & _ & _). now apply H.
Qed.
Lemma falls_may g k r : coerce_requirement g (k_required k) = Some r -> (may_fall_back k r = true <-> falls_back g k).
Proof.
  intros E. unfold may_fall_back, falls_back. destruct (k_allow k) as [[]|]; [intuition|split; [discriminate|intros [[=]|[[=] _]]]|].
  rewrite coerce_required, E. destruct r.
  - destruct (k_fallback k) as [[|n l]|]; split; try discriminate; try (intros [[=]|[_ [[=]|(? & ? & [=])]]]); intros; eauto 6.
  - split; [intros _; right; auto|reflexivity].
  - destruct (k_fallback k) as [[|n l]|]; split; try discriminate; try (intros [[=]|[_ [[=]|(? & ? & [=])]]]); intros; eauto 6.
Qed.

(** what is remembered *)
Lemma remember_rest names m d : forall s, o_static (remember names m d s) = o_static s /\ o_shared (remember names m d s) = o_shared s
  /\ configured (remember names m d s) = configured s /\ events (remember names m d s) = events s.
Proof. induction names as [|n names IH]; intros s; [auto|]. cbn [remember]. match goal with |- context [remember names m d ?t] => destruct (IH t) as (-> & -> & -> & ->) end. auto. Qed.
Lemma remember_static names m d : forall s n e, In (n, e) (c_static (remember names m d s)) -> In (n, e) (c_static s) \/ e = d /\ In n names /\ m <> LShared.
Proof.
  induction names as [|x names IH]; intros s n e H; [now left|]. cbn [remember] in H. apply IH in H. destruct H as [H|(-> & H & Hm)]; [|right; split; [reflexivity|]; split; [now right|exact Hm]].
  cbn in H. destruct m; cbn in H; [|..]; try (destruct H as [[= -> ->]|H]; [right; split; [reflexivity|]; split; [now left|discriminate]|now left]). now left.
Qed.
Lemma remember_shared names m d : forall s n e, In (n, e) (c_shared (remember names m d s)) -> In (n, e) (c_shared s) \/ e = d /\ In n names /\ m <> LStatic.
Proof.
  induction names as [|x names IH]; intros s n e H; [now left|]. cbn [remember] in H. apply IH in H. destruct H as [H|(-> & H & Hm)]; [|right; split; [reflexivity|]; split; [now right|exact Hm]].
  cbn in H. destruct m; cbn in H; [|..]; try (destruct H as [[= -> ->]|H]; [right; split; [reflexivity|]; split; [now left|discriminate]|now left]). now left.
Qed.

(** subprojects *)
Lemma subproject_cases w a s n o : 
  fst (subproject w a s n o) = s \/
  exists sp, look n (configured s) = None /\ subs w n o = Some sp
    /\ c_static (fst (subproject w a s n o)) = c_static s /\ c_shared (fst (subproject w a s n o)) = c_shared s
    /\ o_static (fst (subproject w a s n o)) = s_static sp ++ o_static s /\ o_shared (fst (subproject w a s n o)) = s_shared sp ++ o_shared s
    /\ (configured (fst (subproject w a s n o)) = configured s \/ configured (fst (subproject w a s n o)) = (n, s_vars sp) :: configured s)
    /\ events (fst (subproject w a s n o)) = events s ++ [Configure n o].
Proof.
  unfold subproject. destruct (look n (configured s)) eqn:E; [now left|]. destruct (subs w n o) as [sp|] eqn:E2; [|now left]. right. exists sp.
  match goal with |- context [if ?c then _ else _] => destruct c end; cbn; repeat split; auto.
Qed.
Lemma cache_in s m n d m' : cache s m n = Some (d, m') -> m <> LShared /\ In (n, d) (c_static s) \/ m <> LStatic /\ In (n, d) (c_shared s).
Proof.
  unfold cache. destruct m; cbn.
  - destruct (look n (c_static s)) eqn:E; [intros [= -> _]; left; split; [discriminate|now apply look_in]|].
    destruct (look n (c_shared s)) eqn:E2; [intros [= -> _]; right; split; [discriminate|now apply look_in]|discriminate].
  - destruct (look n (c_static s)) eqn:E; [intros [= -> _]; left; split; [discriminate|now apply look_in]|discriminate].
  - destruct (look n (c_shared s)) eqn:E2; [intros [= -> _]; right; split; [discriminate|now apply look_in]|discriminate].
Qed.
Lemma override_in s m ns d m' : override s m ns = Some (d, m') -> exists n, In n ns /\ In (n, d) (o_static s ++ o_shared s).
Proof.
  induction ns as [|n ns IH]; [discriminate|]. cbn.
  destruct (if not_shared m then look n (o_static s) else None) eqn:E.
  { intros [= -> _]. exists n. split; [now left|]. apply in_or_app. left. destruct (not_shared m); [now apply look_in|discriminate]. }
  destruct (if not_static m then look n (o_shared s) else None) eqn:E2.
  { intros [= -> _]. exists n. split; [now left|]. apply in_or_app. right. destruct (not_static m); [now apply look_in|discriminate]. }
  intros H. destruct (IH H) as (x & H1 & H2). exists x. split; [now right|exact H2].
Qed.
Lemma cache_new s m n : is_new s n -> cache s m n = None.
Proof.
  intros H. destruct (cache s m n) as [[d m']|] eqn:E; [|reflexivity]. destruct (H d). rewrite !in_app_iff. apply cache_in in E. tauto.
Qed.
Lemma override_new s m ns : (forall n, In n ns -> is_new s n) -> override s m ns = None.
Proof.
  intros H. destruct (override s m ns) as [[d m']|] eqn:E; [|reflexivity]. apply override_in in E. destruct E as (n & Hn & E). destruct (H n Hn d).
  rewrite !in_app_iff in *. tauto.
Qed.

(** lookups of new names *)
Definition start (k : call) (r : requirement) : ctx := {| x_mode := with_mode k; x_fb := with_fb k r |}.
Definition finish (k : call) (r : requirement) (q : st * out (option hit)) : st * out result :=
  let '(s2, r2) := q in
  match r2 with
  | Err => (s2, Err) | Crash => (s2, Crash)
  | Ok None => match r with RRequired => (s2, Err) | _ => (s2, Ok (if k_disabler k then RDisabler else RDep (not_there (last (k_names k) [])))) end
  | Ok (Some h) => ((if dp_found (h_dep h) && negb (h_cached h) then remember (k_names k) (h_mode h) (h_dep h) s2 else s2), Ok (RDep (h_dep h)))
  end.
Lemma last_any {A} (l : list A) x y : l <> [] -> last l x = last l y.
Proof. induction l as [|a [|b l] IH]; intros H; [congruence|reflexivity|]. cbn [last] in *. apply IH. discriminate. Qed.
Lemma dependency_lookup w g k s r : k_names k <> [] -> coerce_requirement g (k_required k) = Some r -> r <> RSkip ->
  dependency w g k s = finish k r (
     let '(s1, r1) := try_names w (with_args k r) false false (k_names k) s (start k r) in
     match r1 with Ok None => if may_fall_back k r then try_names w (with_args k r) true true (k_names k) s1 (start k r) else (s1, Ok None) | _ => (s1, r1) end).
Proof.
  intros N E R. unfold dependency. destruct (k_names k) as [|first names] eqn:En; [congruence|]. rewrite <- En in *. rewrite E.
  rewrite (last_any (k_names k) first []) by exact N.
  destruct r; [congruence|..]; unfold finish, start, with_fb, with_args, with_mode, not_there; rewrite ?En;
    (destruct (try_names _ _ false false _ _ _) as [s1 [[h|]| |]]; [reflexivity| |reflexivity|reflexivity]);
    destruct (may_fall_back _ _); try reflexivity.
Qed.
Lemma one_ordinary w a al on n s x : ordinary n -> one_name w a al on n s x = let '(s', _, r) := get w a al on n s x in (s', r).
Proof.
  intros H. unfold one_name, ordinary in *.
  destruct (beqb_spec n (B "threads")) as [->|_]; [destruct H; now left|].
  destruct (beqb_spec n (B "curses")) as [->|_]; [destruct H; right; now left|].
  destruct (beqb_spec n (B "appleframeworks")) as [->|_]; [destruct H; right; right; now left|].
  destruct (beqb_spec n []) as [->|_]; [destruct H; right; right; right; now left|]. reflexivity.
Qed.
Definition asked (ns : list bytes) (s : st) : st :=
  {| c_static := c_static s; c_shared := c_shared s; o_static := o_static s; o_shared := o_shared s; configured := configured s; events := events s ++ map AskPkg ns |}.
Lemma asked_nil s : asked [] s = s.
Proof. destruct s. unfold asked. cbn. now rewrite app_nil_r. Qed.
Lemma asked_asked a b s : asked b (asked a s) = asked (a ++ b) s.
Proof. unfold asked. cbn. now rewrite map_app, app_assoc. Qed.
Lemma asked_new ns s n : is_new s n -> is_new (asked ns s) n.
Proof. exact (fun H => H). Qed.
Lemma static_mode k : match with_mode k with LStatic => true | _ => false end = wants_static k.
Proof. unfold with_mode, wants_static. now destruct (k_static k) as [[]|]. Qed.
Lemma system_suits w k r s n v : suits w k n v ->
  system w (with_args k r) s (with_mode k) n = (asked [n] s, Ok (Some (package n (wants_static k) v, with_mode k))).
Proof. intros [E M]. unfold system. rewrite static_mode, E. now rewrite (proj2 (version_meets k r v) M). Qed.
Lemma system_not w k r s n : (forall v, ~ suits w k n v) ->
  system w (with_args k r) s (with_mode k) n = (asked [n] s, Ok None).
Proof.
  intros H. unfold system. rewrite static_mode. destruct (pkg w n (wants_static k)) as [v|] eqn:E; [|reflexivity].
  rewrite version_fails; [reflexivity|]. intros M. exact (H v (conj E M)).
Qed.
Definition the_fb (w : world) (al : bool) (n : bytes) (f : option (list bytes)) : option (list bytes) :=
  match f with Some f => Some f | None => match look n (provides w) with Some f => Some f | None => if al then Some [n] else None end end.
Lemma get_new w k r al on n s : (forall m, In m (k_names k) -> is_new s m) -> In n (k_names k) ->
  get w (with_args k r) al on n s (start k r) =
  let x' := {| x_mode := with_mode k; x_fb := the_fb w al n (with_fb k r) |} in
  match the_fb w al n (with_fb k r) with
  | Some [] => (s, x', Crash)
  | Some ((fn :: _) as f) =>
      if (match wrap w with Forcefallback => true | _ => false end || mem n (force_for w) || match look fn (configured s) with Some _ => true | None => false end) || on
      then let '(s', q) := fallback w (with_args k r) s (with_mode k) f in (s', x', to_hit q)
      else let '(s', q) := system w (with_args k r) s (with_mode k) n in
           match q with
           | Ok None => let '(s'', q') := fallback w (with_args k r) s' (with_mode k) f in (s'', x', to_hit q')
           | _ => (s', x', to_hit q)
           end
  | None => let '(s', q) := system w (with_args k r) s (with_mode k) n in (s', x', to_hit q)
  end.
Proof. intros H Hn. unfold get. cbn [x_mode x_fb start]. rewrite cache_new by auto. cbn [a_names with_args]. rewrite override_new by auto. reflexivity. Qed.

(** names without a fallback in the first round *)
Lemma first_round w k r : with_fb k r = None -> forall names s, (forall n, In n names -> In n (k_names k)) ->
  (forall m, In m (k_names k) -> is_new s m) ->
  (forall n, In n names -> ordinary n /\ (forall f, ~ In (n, f) (provides w)) /\ forall v, ~ suits w k n v) ->
  forall rest, try_names w (with_args k r) false false (names ++ rest) s (start k r) = try_names w (with_args k r) false false rest (asked names s) (start k r).
Proof.
  intros F. induction names as [|n names IH]; intros s Hin Hnew H rest; [now rewrite asked_nil|].
  destruct (H n (or_introl eq_refl)) as (O & Pv & Sv). cbn [app try_names]. rewrite one_ordinary by exact O.
  rewrite get_new by (auto; apply Hin; now left). unfold the_fb. rewrite F, look_none by exact Pv. cbn [snd fst]. rewrite system_not by exact Sv. cbn [to_hit].
  rewrite IH.
  - now rewrite asked_asked.
  - intros m Hm. apply Hin. now right.
  - intros m Hm. now apply asked_new, Hnew.
  - intros m Hm. apply H. now right.
Qed.

(** fallbacks *)
Lemma options_are k r opts : options_for k opts -> fallback_options (with_args k r) (with_mode k) = opts.
Proof.
  unfold options_for, fallback_options, with_mode. cbn [a_defaults with_args]. destruct (k_static k) as [[]|]; [| |now intros ->]; cbn zeta.
  - intros [[Hi ->]|[Hi ->]].
    + now rewrite (proj2 (mem_spec _ _) Hi).
    + destruct (mem (B "default_library=static") (k_defaults k)) eqn:E; [apply mem_spec in E; contradiction|reflexivity].
  - intros [[Hi ->]|[Hi ->]].
    + now rewrite (proj2 (mem_spec _ _) Hi).
    + destruct (mem (B "default_library=shared") (k_defaults k)) eqn:E; [apply mem_spec in E; contradiction|reflexivity].
Qed.
Lemma subproject_new w k r s f opts sp : ~ is_configured s f -> subs w f opts = Some sp -> s_ok sp = true -> meets k (s_version sp) ->
  exists s', subproject w (with_args k r) s f opts = (s', true) /\ events s' = events s ++ [Configure f opts]
   /\ o_static s' = s_static sp ++ o_static s /\ o_shared s' = s_shared sp ++ o_shared s /\ configured s' = (f, s_vars sp) :: configured s.
Proof.
  intros Nc E Ok M. unfold subproject. rewrite look_none by (intros v Hv; apply Nc; now exists v). rewrite E, Ok. cbn [andb a_versions with_args].
  unfold meets in M. destruct (k_version k) as [reqs|].
  - apply compare_meets in M. rewrite M. cbn. eexists. repeat split; reflexivity.
  - eexists. repeat split; reflexivity.
Qed.
Lemma override_offers k s s' sp n d : (forall e, ~ In (n, e) (o_static s ++ o_shared s)) -> o_static s' = s_static sp ++ o_static s -> o_shared s' = s_shared sp ++ o_shared s ->
  offers k sp n d -> exists m, override s' (with_mode k) [n] = Some (d, m).
Proof.
  intros Hn E1 E2 O. unfold offers in O. unfold with_mode, override.
  assert (F : forall l l' : list (bytes * dep), (exists l1 l2, l = l1 ++ (n, d) :: l2 /\ forall e, ~ In (n, e) l1) -> look n (l ++ l') = Some d).
  { intros l l' (l1 & l2 & -> & H). rewrite <- app_assoc. now apply look_first. }
  destruct (k_static k) as [[]|]; cbn.
  - rewrite E1, F by exact O. eauto.
  - rewrite E2, F by exact O. eauto.
  - destruct O as [O|[O1 O2]].
    + rewrite E1, F by exact O. eauto.
    + rewrite E1, look_app, (look_none n (s_static sp)) by exact O1. rewrite look_none by (intros e He; apply (Hn e); apply in_or_app; now left). rewrite E2, F by exact O2. eauto.
Qed.
Lemma fallback_does w k r s n fb f rest opts sp d : k_names k = [n] -> (forall e, ~ In (n, e) (o_static s ++ o_shared s)) ->
  wrap w <> Nofallback -> fb = f :: rest -> ~ is_configured s f -> options_for k opts -> subs w f opts = Some sp -> s_ok sp = true -> meets k (s_version sp) ->
  (fb = [f] /\ offers k sp n d \/ exists v, fb = [f; v] /\ variable sp v d) ->
  exists s' m, fallback w (with_args k r) s (with_mode k) fb = (s', Ok (Some (d, m))) /\ events s' = events s ++ [Configure f opts].
Proof.
  intros N Hn W -> Nc Op E Ok M D. destruct (subproject_new w k r s f opts sp Nc E Ok M) as (s' & Es & Ev & E1 & E2 & Ec).
  pose proof (options_are k r opts Op) as Eo.
  unfold fallback. rewrite Eo.
  destruct D as [[[= ->] O]|(v & [= ->] & O)].
  - destruct (override_offers k s s' sp n d Hn E1 E2 O) as (m & Em). exists s', m. rewrite Es. cbn [a_names with_args]. rewrite N, Em. split; [|exact Ev]. destruct (wrap w); congruence.
  - exists s', (with_mode k). rewrite Es. rewrite Ec. cbn [look]. rewrite beqb_refl. destruct O as (l1 & l2 & -> & O). rewrite look_first by exact O.
    split; [|exact Ev]. destruct (wrap w); congruence.
Qed.
(** when there is nothing to fall back on *)
Definition no_subprojects (w : world) (k : call) (s : st) : Prop :=
  wrap w = Nofallback \/ (forall f o, subs w f o = None) /\ configured s = [].
Definition fair (w : world) (k : call) : Prop :=
  forall fb, k_fallback k = Some fb \/ (exists n, In (n, fb) (provides w)) -> exists f, fb = [f] \/ exists v, fb = [f; v].
Lemma fallback_nothing w k r s m fb : no_subprojects w k s -> (exists f, fb = [f] \/ exists v, fb = [f; v]) -> fallback w (with_args k r) s m fb = (s, Ok None).
Proof.
  intros [W|[Hs Hc]] (f & Hf); unfold fallback; [now rewrite W|].
  assert (E : forall o, subproject w (with_args k r) s f o = (s, false)) by (intros o; unfold subproject; now rewrite Hc, Hs).
  destruct Hf as [->|(v & ->)]; rewrite E; now destruct (wrap w).
Qed.
Lemma the_fb_fair w k r al n fb : fair w k -> the_fb w al n (with_fb k r) = Some fb -> exists f, fb = [f] \/ exists v, fb = [f; v].
Proof.
  intros F. unfold the_fb, with_fb. assert (G : match look n (provides w) with Some f => Some f | None => if al then Some [n] else None end = Some fb -> exists f, fb = [f] \/ exists v, fb = [f; v]).
  { destruct (look n (provides w)) eqn:E; [intros [= ->]; apply F; right; exists n; now apply look_in|]. destruct al; [intros [= <-]; eauto|discriminate]. }
  destruct (may_fall_back k r); [|exact G]. destruct (k_fallback k) eqn:E; [intros [= ->]; apply F; now left|exact G].
Qed.
Lemma nothing_there w k r al on names : fair w k -> forall s, no_subprojects w k s -> (forall n, In n names -> In n (k_names k)) ->
  (forall m, In m (k_names k) -> is_new s m) -> (forall n, In n names -> ordinary n /\ forall v, ~ suits w k n v) ->
  exists l, try_names w (with_args k r) al on names s (start k r) = (asked l s, Ok None).
Proof.
  intros F. induction names as [|n names IH]; intros s Ns Hin Hnew H; [exists []; now rewrite asked_nil|].
  destruct (H n (or_introl eq_refl)) as (O & Sv). cbn [try_names]. rewrite one_ordinary by exact O.
  assert (R : exists l x', get w (with_args k r) al on n s (start k r) = (asked l s, x', Ok None)).
  { rewrite get_new by (auto; apply Hin; now left). cbn zeta. destruct (the_fb w al n (with_fb k r)) as [fb|] eqn:Ef.
    - pose proof (the_fb_fair w k r al n fb F Ef) as Hf. destruct fb as [|f fb]; [destruct Hf as (f & [[=]|(v & [=])])|].
      match goal with |- context [if ?c then _ else _] => destruct c end.
      + rewrite fallback_nothing by assumption. exists []. cbn. rewrite asked_nil. eexists. reflexivity.
      + rewrite system_not by exact Sv. rewrite fallback_nothing; [|exact Ns|exact Hf]. exists [n]. eexists. reflexivity.
    - rewrite system_not by exact Sv. exists [n]. eexists. reflexivity. }
  destruct R as (l & x' & ->). destruct (IH (asked l s) Ns) as (l2 & E).
  - intros m Hm. apply Hin. now right.
  - exact Hnew.
  - intros m Hm. apply H. now right.
  - exists (l ++ l2). rewrite E. now rewrite asked_asked.
Qed.
