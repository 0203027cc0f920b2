(** Properties of feature options. *)
From Verif Require Import Base M_Feature S_Feature.

Lemma seen_get g fo : seen g fo (get g fo).
Proof. destruct fo; cbn; [destruct g; now constructor| constructor..]. Qed.
Lemma seen_fun g fo s : seen g fo s -> s = get g fo.
Proof. destruct 1 as [| |s ->| ->]; reflexivity. Qed.

(** a result that is not auto is seen as it is; auto is only returned where it was *)
Lemma call_documented g fo m : documented (get g fo) m (option_map (get g) (call g fo m)).
Proof.
  destruct fo, m as [[]|[]|[]|[]|[]], g as [[]|]; cbn; try (constructor; discriminate); try constructor.
  all: try apply (d_disable_auto Auto true). all: try apply (d_disable_auto Enabled true). all: try apply (d_disable_auto Disabled true).
  all: try apply (d_disable_auto Auto false). all: try apply (d_disable_auto Enabled false). all: try apply (d_disable_auto Disabled false).
  all: try apply (d_enable_auto Auto true). all: try apply (d_enable_auto Enabled true). all: try apply (d_enable_auto Disabled true).
  all: try apply (d_enable_auto Auto false). all: try apply (d_enable_auto Enabled false). all: try apply (d_enable_auto Disabled false).
Qed.

(** C54: allowed(), auto(), enabled() and disabled() tell the state, and every chain of calls
    returns, or fails, as documented. *)
Theorem C54_states_as_documented : forall g fo s, seen g fo s ->
  (is_auto g fo = true <-> s = Auto) /\ (is_enabled g fo = true <-> s = Enabled) /\ (is_disabled g fo = true <-> s = Disabled)
  /\ (allowed g fo = true <-> s <> Disabled).
Proof.
  intros g fo s H. apply seen_fun in H as ->. unfold is_auto, is_enabled, is_disabled, allowed.
  destruct (get g fo); cbn; repeat split; congruence.
Qed.
Print Assumptions C54_states_as_documented.

Theorem C54_chains_as_documented : forall g l fo s, seen g fo s ->
  match chain g fo l with
  | Some r => exists t, seen g r t /\ documented_chain s l (Some t)
  | None => documented_chain s l None
  end.
Proof.
  intros g l. induction l as [|m l IH]; intros fo s H; cbn [chain].
  - exists s. split; [assumption|constructor].
  - apply seen_fun in H as ->. pose proof (call_documented g fo m) as D. destruct (call g fo m) as [r|]; cbn in D.
    + specialize (IH r (get g r) (seen_get g r)). destruct (chain g r l) as [q|].
      * destruct IH as (t & St & C). exists t. split; [assumption|]. now apply dc_cons with (get g r).
      * now apply dc_cons with (get g r).
    + now constructor.
Qed.
Print Assumptions C54_chains_as_documented.

(** C54: a disabled feature stays disabled, an enabled one enabled, in every chain that does not fail. *)
Theorem C54_disabled_is_never_turned_on : forall g l fo s r, seen g fo s -> s <> Auto -> chain g fo l = Some r -> seen g r s.
Proof.
  intros g l. induction l as [|m l IH]; intros fo s r H N E; cbn [chain] in E.
  - now injection E as <-.
  - destruct (call g fo m) as [fo'|] eqn:C; [|discriminate]. apply IH with fo'; [|assumption|assumption].
    pose proof (call_documented g fo m) as D. rewrite C in D. cbn in D. apply seen_fun in H. rewrite <- H in D.
    assert (get g fo' = s) as <- by (destruct s; [contradiction|..]; inversion D; subst; congruence).
    apply seen_get.
Qed.
Print Assumptions C54_disabled_is_never_turned_on.

Example ex_chain : chain None Auto [Require true; EnableAutoIf false; EnableIf true; Require true; DisableAutoIf true] = Some Enabled
  /\ chain (Some Disabled) Auto [Require true; EnableAutoIf true; DisableAutoIf true] = Some Auto
  /\ chain (Some Disabled) Auto [EnableIf true] = None
  /\ is_disabled (Some Disabled) Auto = true.
Proof. repeat split. Qed.

(** C90: the keyword required: skips a look-up exactly for a disabled feature, and makes it an
    error not to find something exactly for true, an enabled feature, and if it is not given. *)
Theorem C90_requirements : forall g kw r, coerce_requirement g kw = Some r ->
  (r = RSkip <-> exists fo, kw = Some (KFeature fo) /\ seen g fo Disabled)
  /\ (r = RRequired <-> kw = None \/ kw = Some (KBool true) \/ exists fo, kw = Some (KFeature fo) /\ seen g fo Enabled)
  /\ (r = RAuto <-> kw = Some (KBool false) \/ exists fo, kw = Some (KFeature fo) /\ seen g fo Auto).
Proof.
  intros g kw r E.
  assert (F : forall fo s, kw = Some (KFeature fo) -> (get g fo = s <-> exists fo', kw = Some (KFeature fo') /\ seen g fo' s)).
  { intros fo s ->. split.
    - intros <-. exists fo. split; [reflexivity|apply seen_get].
    - intros (fo' & [= <-] & S). symmetry. now apply seen_fun. }
  destruct kw as [[[]|fo|]|]; cbn in E; [injection E as <-..|discriminate|injection E as <-].
  - repeat split; try discriminate; try tauto; [now intros (? & [=] & _)|intros [[=]|(? & [=] & _)]].
  - repeat split; try discriminate; try tauto; [now intros (? & [=] & _)|intros [[=]|[[=]|(? & [=] & _)]]].
  - rewrite <- !(F fo) by reflexivity. destruct (get g fo); repeat split; try discriminate; try tauto.
    all: intros H; repeat destruct H as [H|H]; congruence.
  - repeat split; try discriminate; try tauto; [now intros (? & [=] & _)|intros [[=]|(? & [=] & _)]].
Qed.
Print Assumptions C90_requirements.
Example ex_requirements : map (coerce_requirement (Some Disabled)) [None; Some (KBool false); Some (KFeature Auto); Some (KFeature Enabled)]
  = [Some RRequired; Some RAuto; Some RSkip; Some RRequired].
Proof. reflexivity. Qed.
