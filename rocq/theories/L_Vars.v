(** Variables, and what += does to them. *)
From Verif Require Import Base M_Interp S_Interp L_Interp L_Mono L_Eval L_Effects L_Scope.

Lemma lookup_set_same : forall {A} (l : list (bytes * A)) k v, dict_lookup (dict_set l k v) k = Some v.
Proof.
  intros A l k v. unfold dict_lookup, dict_set. destruct (existsb _ l) eqn:E.
  - apply existsb_exists in E. destruct E as ([k' v'] & I & Ek). cbn in Ek.
    induction l as [|[k1 v1] l IH]; [destruct I|]. cbn. destruct (beqb k1 k) eqn:E1; cbn.
    + now rewrite beqb_refl.
    + rewrite E1. apply IH. destruct I as [I|I]; [inversion I; subst; congruence|exact I].
  - induction l as [|[k1 v1] l IH]; cbn; [now rewrite beqb_refl|].
    cbn in E. apply orb_false_iff in E. destruct E as [E1 E2]. rewrite E1. now apply IH.
Qed.
Lemma lookup_set_other : forall {A} (l : list (bytes * A)) k k' v, k <> k' -> dict_lookup (dict_set l k v) k' = dict_lookup l k'.
Proof.
  intros A l k k' v N. unfold dict_lookup, dict_set. assert (Nk : beqb k k' = false) by now apply beqb_neq.
  destruct (existsb _ l).
  - induction l as [|[k1 v1] l IH]; cbn; [reflexivity|]. destruct (beqb k1 k) eqn:E1; cbn.
    + apply beqb_eq in E1. subst k1. rewrite Nk. exact IH.
    + destruct (beqb k1 k'); [reflexivity|exact IH].
  - induction l as [|[k1 v1] l IH]; cbn; [now rewrite Nk|]. destruct (beqb k1 k'); [reflexivity|exact IH].
Qed.
Lemma find_scope_same : forall s s' x st f,
  (forall j, In j st -> dict_lookup (scope_at s' j) x = dict_lookup (scope_at s j) x) ->
  find_scope s' x st f = find_scope s x st f.
Proof.
  induction st as [|j st IH]; intros f H; cbn; [reflexivity|].
  rewrite H by now left. apply IH. intros j' I. apply H. now right.
Qed.
Lemma find_scope_app : forall s x st st' f, find_scope s x (st ++ st') f = find_scope s x st' (find_scope s x st f).
Proof. induction st as [|j st IH]; intros st' f; cbn; [reflexivity|apply IH]. Qed.
Lemma get_same : forall s s' x,
  nth (cur s') (stacks s') [] = nth (cur s) (stacks s) [] ->
  (forall j, In j (nth (cur s) (stacks s) []) -> dict_lookup (scope_at s' j) x = dict_lookup (scope_at s j) x) ->
  get_local_variable s' x = get_local_variable s x.
Proof. intros s s' x E H. unfold get_local_variable. rewrite E. now apply find_scope_same. Qed.
Lemma get_same_v : forall s s' x, get_local_variable s' x = get_local_variable s x -> get_variable s' x = get_variable s x.
Proof. intros s s' x H. unfold get_variable. now rewrite H. Qed.
Lemma in_scope : forall s i, well_formed s -> In i (nth (cur s) (stacks s) []) -> i < length (scopes s).
Proof. intros s i (W1 & W2 & _) I. eapply W2; [|exact I]. now apply nth_In. Qed.

(** binding [x] in the scope [i] of the stack *)
Definition bound (i : nat) (x : bytes) (o : nat) (s : state) : state :=
  with_scopes (upd i (dict_set (scope_at s i) x o) (scopes s)) s.
Lemma bound_other : forall i x o s y, x <> y -> get_local_variable (bound i x o s) y = get_local_variable s y.
Proof.
  intros i x o s y N. apply get_same; [reflexivity|]. intros j _. unfold scope_at, bound. cbn.
  destruct (Nat.eq_dec i j) as [<-|Nj]; [|now rewrite nth_upd_other].
  destruct (Nat.lt_ge_cases i (length (scopes s))) as [L|L].
  - rewrite nth_upd_same by exact L. now apply lookup_set_other.
  - rewrite !nth_overflow; rewrite ?upd_length; auto.
Qed.
Lemma find_some_split : forall s x st f i o, find_scope s x st f = Some (i, o) ->
  (exists st1 st2, st = st1 ++ i :: st2 /\ dict_lookup (scope_at s i) x = Some o /\ forall j, In j st2 -> dict_lookup (scope_at s j) x = None)
  \/ (f = Some (i, o) /\ forall j, In j st -> dict_lookup (scope_at s j) x = None).
Proof.
  intros s x. induction st as [|j st IH]; intros f i o H; cbn in H; [right; split; [exact H|intros j []]|].
  apply IH in H. destruct H as [(st1 & st2 & -> & L & N)|[H N]].
  - left. exists (j :: st1), st2. auto.
  - destruct (dict_lookup (scope_at s j) x) as [o'|] eqn:E.
    + inversion H; subst. left. exists [], st. auto.
    + right. split; [exact H|]. intros k [<-|I]; auto.
Qed.
Lemma find_tail : forall s x st p, (forall j, In j st -> dict_lookup (scope_at s j) x = None) -> find_scope s x st p = p.
Proof.
  induction st as [|k st IH]; intros p H; cbn; [reflexivity|]. rewrite H by now left. apply IH. intros j I. apply H. now right.
Qed.
(** += binds the name where it is already bound *)
Lemma bound_found : forall s x i o o', well_formed s -> get_local_variable s x = Some (i, o) ->
  get_local_variable (bound i x o' s) x = Some (i, o').
Proof.
  intros s x i o o' W H. unfold get_local_variable in *. change (nth (cur (bound i x o' s)) (stacks (bound i x o' s)) []) with (nth (cur s) (stacks s) []).
  assert (J := H). apply find_some_split in J. destruct J as [(st1 & st2 & E & L & N)|[J _]]; [|discriminate].
  assert (Li : i < length (scopes s)). { apply in_scope; [exact W|]. rewrite E. apply in_or_app. right. now left. }
  rewrite E, find_scope_app. cbn [find_scope].
  assert (X : dict_lookup (scope_at (bound i x o' s) i) x = Some o').
  { unfold scope_at, bound. cbn. rewrite nth_upd_same by exact Li. apply lookup_set_same. }
  rewrite X. apply find_tail. intros j Ij. destruct (Nat.eq_dec j i) as [->|Nj].
  - rewrite N in L by exact Ij. discriminate.
  - unfold scope_at, bound. cbn. rewrite nth_upd_other by congruence. now apply N.
Qed.
(** = binds it in the innermost scope *)
Lemma bound_last : forall s x i o st, well_formed s -> nth (cur s) (stacks s) [] = st ++ [i] ->
  get_local_variable (bound i x o s) x = Some (i, o).
Proof.
  intros s x i o st W E. unfold get_local_variable. change (nth (cur (bound i x o s)) (stacks (bound i x o s)) []) with (nth (cur s) (stacks s) []).
  assert (Li : i < length (scopes s)). { apply in_scope; [exact W|]. rewrite E. apply in_or_app. right. now left. }
  rewrite E, find_scope_app. cbn [find_scope].
  unfold scope_at, bound. cbn [scopes with_scopes]. rewrite nth_upd_same by exact Li. now rewrite lookup_set_same.
Qed.
Lemma assign_local_ok : forall x o s s' u, assign_local x o s = Ok s' u ->
  exists st i, nth (cur s) (stacks s) [] = st ++ [i] /\ s' = bound i x o s.
Proof.
  intros x o s s' u H. unfold assign_local in H. destruct (rev (nth (cur s) (stacks s) [])) as [|i l] eqn:E; [discriminate|].
  exists (rev l), i. split; [|unfold set_in_scope, put in H; now inversion H].
  rewrite <- (rev_involutive (nth _ _ _)), E. reflexivity.
Qed.

Section Plus.
Variable other : bytes -> option builtin.
Variable method : obj -> bytes -> option builtin.
Hypothesis Hother : forall f b, other f = Some b -> tame b.
Hypothesis Hmethod : forall x m b, method x m = Some b -> tame b.
Notation evaluates := (evaluates other method).

Lemma quiet_ev : forall e s s' o, quiet other e -> evaluates (NExpr e) s s' o -> Rq s s'.
Proof. intros e s s' o Q [f H]. eapply quiet_pres; eassumption. Qed.
Lemma rq_get : forall s s' x, Rq s s' -> get_local_variable s' x = get_local_variable s x.
Proof.
  intros s s' x (_ & E1 & E2 & E3 & _). apply get_same; [now rewrite E2, E3|]. intros j _. unfold scope_at. now rewrite E1.
Qed.

(** one += : in place, or a new object *)
Inductive plus_result (a : bytes) (s s1 s' : state) : Prop :=
| plus_in_place i oa x : get_local_variable s a = Some (i, oa) -> container (obj_at s1 oa) -> container x ->
    s' = bound i a oa (with_heap (upd oa x (heap s1)) s1) -> plus_result a s s1 s'
| plus_new i oa x : get_local_variable s a = Some (i, oa) -> ~ container x -> not_func x ->
    s' = bound i a (length (heap s1)) (with_heap (heap s1 ++ [x]) s1) -> plus_result a s s1 s'
| plus_disabler i oa : get_local_variable s a = Some (i, oa) ->
    s' = bound i a disabler_id s1 -> plus_result a s s1 s'.
Lemma reassign_ok : forall x o s s' u, reassign x o s = Ok s' u ->
  exists i o', get_local_variable s x = Some (i, o') /\ s' = bound i x o s.
Proof.
  intros x o s s' u H. unfold reassign in H. destruct (get_local_variable s x) as [[i o']|]; [|discriminate].
  exists i, o'. split; [reflexivity|]. now inversion H.
Qed.
Lemma plus_step : forall a e s s' o, idle s -> quiet other e -> evaluates (NStmt (SPlusAssign a e)) s s' o ->
  exists s1 r, evaluates (NExpr e) s s1 r /\ Rq s s1 /\ plus_result a s s1 s'.
Proof.
  intros a e s s' o I Q H. apply ev_stmt_inv in H; [|exact I]. destruct H as [f H]. specialize (H f (le_n f)).
  cbn [node_stmt] in H. apply bind_ok in H. destruct H as (s2 & o2 & HA & H).
  apply bind_ok in H. destruct H as (s3 & u & HR & H). inversion H; subst s3 o. clear H.
  apply reassign_ok in HR. destruct HR as (i & o' & G & ->).
  unfold arithmetic in HA. apply bind_ok in HA. destruct HA as (s0 & l & H1 & HA).
  apply evaluates_at in H1. apply ev_var in H1; [|exact I]. destruct H1 as [-> Ga].
  apply bind_ok in HA. destruct HA as (s1 & r & H2 & HA). apply evaluates_at in H2. exists s1, r. split; [exact H2|]. apply quiet_ev in H2; [|exact Q].
  split; [exact H2|].
  assert (Ga' : exists i', get_local_variable s a = Some (i', l)).
  { unfold get_variable in Ga. destruct (get_local_variable s a) as [[i' l']|]; inversion Ga; subst. eauto. }
  destruct Ga' as [i' Ga'].
  assert (X : forall h, get_local_variable (with_heap h s1) a = Some (i', l)).
  { intros h. transitivity (get_local_variable s1 a); [|rewrite (rq_get _ _ a H2); exact Ga'].
    apply get_same; [reflexivity|]. reflexivity. }
  assert (X0 : get_local_variable s1 a = Some (i', l)) by (rewrite (rq_get _ _ a H2); exact Ga').
  destruct ((l =? disabler_id) || (r =? disabler_id))%bool.
  { inversion HA; subst. rewrite X0 in G. inversion G; subst. eapply plus_disabler; [exact Ga'|reflexivity]. }
  unfold bind at 1 2, look in HA. cbv beta iota in HA.
  destruct (obj_at s1 l) as [| |b0|n|t|xs|d|ps rr body st] eqn:El; try discriminate.
  - destruct (obj_at s1 r); try discriminate. cbn [num_arith] in HA. destruct (in_i64 _); [|discriminate].
    inversion HA; subst. rewrite X in G. inversion G; subst. eapply plus_new; [exact Ga'| | |reflexivity]; [intros []|exact Logic.I].
  - destruct (obj_at s1 r); try discriminate. inversion HA; subst. rewrite X in G. inversion G; subst.
    eapply plus_new; [exact Ga'| | |reflexivity]; [intros []|exact Logic.I].
  - unfold bind, ret, store, put in HA. inversion HA; subst. rewrite X in G. inversion G; subst.
    eapply plus_in_place; [exact Ga'|rewrite El; exact Logic.I| |reflexivity]. exact Logic.I.
  - destruct (obj_at s1 r); try discriminate. unfold bind, ret, store, put in HA. inversion HA; subst. rewrite X in G. inversion G; subst.
    eapply plus_in_place; [exact Ga'|rewrite El; exact Logic.I| |reflexivity]. exact Logic.I.
Qed.
End Plus.

(** changing an object does not change values that do not contain it *)
Lemma avoid : forall h oa v x w o, denotes h oa v -> denotes h o w -> vdepth w < vdepth v -> denotes (upd oa x h) o w.
Proof.
  intros h oa v x. induction w as [b|n|t|l IH|l IH|o'] using value_ind2; intros o Dv D L;
    assert (N : oa <> o) by (intros ->; assert (E := denotes_fun _ _ _ _ Dv D); subst v; lia);
    apply den_inv in D; destruct D as (y & E & D);
    (eapply den_intro; [rewrite nth_error_upd_other by exact N; exact E|]); cbn in *; auto; fold vdepth in L.
  - destruct D as (a & -> & F). exists a. split; [reflexivity|].
    assert (Fd : forall u, In u l -> vdepth u < vdepth v).
    { intros u I. apply (in_map vdepth), list_max_in in I. lia. }
    clear L E. induction F as [|y z a l Hy F IHf]; constructor; inversion IH; subst; auto.
    + apply H1; auto. apply Fd. now left.
    + apply IHf; auto. intros u I. apply Fd. now right.
  - destruct D as (a & -> & Nd & F). exists a. split; [reflexivity|]. split; [exact Nd|].
    assert (Fd : forall u, In u l -> vdepth (snd u) < vdepth v).
    { intros u I. apply (in_map (fun p => vdepth (snd p))), list_max_in in I. lia. }
    clear L E Nd. induction F as [|y z a l [Ey Hy] F IHf]; constructor; inversion IH; subst; auto.
    + split; auto. apply H1; auto. apply Fd. now left.
    + apply IHf; auto. intros u I. apply Fd. now right.
Qed.
Lemma Forall2_in_impl : forall {A B} (R R' : A -> B -> Prop) l m, Forall2 R l m ->
  (forall x y, In y m -> R x y -> R' x y) -> Forall2 R' l m.
Proof.
  induction 1 as [|x y l m H F IH]; intros K; constructor.
  - apply K; [now left|exact H].
  - apply IH. intros x' y' I. apply K. now right.
Qed.
Lemma upd_same_nth : forall {A} (l : list A) i x, nth_error l i = Some x -> upd i x l = l.
Proof. induction l as [|y l IH]; intros [|i] x H; cbn in *; try discriminate; [now inversion H|f_equal; auto]. Qed.
