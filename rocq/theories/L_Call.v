(** Arguments of calls. *)
From Verif Require Import Base M_Interp S_Interp L_Interp L_Mono L_Eval L_Effects L_Scope L_An.

Lemma flat_spec : forall s v o fuel, denotes (heap s) o v -> vdepth v < fuel ->
  exists b, flat_disabler fuel s o = Some b /\ (disabled v -> b = true) /\
    (nth_error (heap s) disabler_id = Some ODisabler -> b = true -> disabled v).
Proof.
  intros s. induction v as [b|n|t|vs IH|kvs IH|o'] using value_ind2; intros o fuel D F;
    (destruct fuel as [|fuel]; [lia|]); cbn [flat_disabler]; apply den_inv in D; destruct D as (x & E & D); cbn in D;
    rewrite (obj_at_nth _ _ _ E).
  1,2,3,5: (subst x || destruct D as (l & -> & _)); exists (o =? disabler_id); (split; [reflexivity|]);
    (split; [intros X; inversion X|]); intros H H'; apply Nat.eqb_eq in H'; subst o; congruence.
  - destruct D as (l & -> & Fl). clear E. cbn in F. fold vdepth in F.
    assert (X : exists b, (fix iter (l : list nat) : option bool :=
             match l with
             | [] => Some false
             | x :: l =>
                 match flat_disabler fuel s x, iter l with
                 | Some a, Some b => Some (a || b)
                 | _, _ => None
                 end
             end) l = Some b /\ (Exists disabled vs -> b = true) /\
       (nth_error (heap s) disabler_id = Some ODisabler -> b = true -> Exists disabled vs)).
    { assert (Fd : forall w, In w vs -> vdepth w < fuel).
      { intros w I. apply (in_map vdepth), list_max_in in I. lia. }
      clear F. induction Fl as [|y w l vs Dy Fl IHl]; [exists false; repeat split; [intros X; inversion X|discriminate]|].
      inversion IH as [|? ? Hw Hvs]; subst.
      destruct (Hw y fuel Dy (Fd w (or_introl eq_refl))) as (a & -> & A1 & A2).
      destruct (IHl Hvs (fun w I => Fd w (or_intror I))) as (b & -> & B1 & B2).
      exists (a || b)%bool. repeat split.
      - intros X. apply orb_true_iff. inversion X; subst; [left|right]; auto.
      - intros H X. apply orb_true_iff in X. destruct X as [->| ->]; [left|right]; auto. }
    destruct X as (b & Eb & B1 & B2). exists b. split; [exact Eb|]. split.
    + intros X. inversion X; subst. auto.
    + intros H X. constructor. auto.
  - destruct D as (D1 & D). subst o'.
    assert (X : exists b, match x with
       | OArr l => (fix iter (l : list nat) : option bool :=
             match l with
             | [] => Some false
             | x :: l =>
                 match flat_disabler fuel s x, iter l with
                 | Some a, Some b => Some (a || b)
                 | _, _ => None
                 end
             end) l
       | _ => Some (o =? disabler_id) end = Some b /\ b = (o =? disabler_id)).
    { destruct x; try contradiction; eexists; split; reflexivity. }
    destruct X as (b & -> & ->). eexists. split; [reflexivity|]. split.
    + intros X. inversion X; subst. apply Nat.eqb_refl.
    + intros _ X. apply Nat.eqb_eq in X. subst. constructor.
Qed.

Section Call.
Variable other : bytes -> option builtin.
Variable method : obj -> bytes -> option builtin.
Notation interp := (interp other method).
Notation evaluates := (evaluates other method).
Notation E f := (fun e => interp f (NExpr e)).
Notation Bk f := (fun b => interp f (NBlock b)).

Lemma check_accepted : forall t s o, accepted t s o -> late (fun f => check_arg f false t o s = Ok s tt).
Proof.
  intros t s o (Hd & v & x & D & N & Ex & Nx & Ht).
  exists (S (vdepth v)). intros f L. destruct (flat_spec s v o f D L) as (b & Eb & B1 & B2).
  unfold check_arg. rewrite Eb. destruct b; [exfalso; apply N; auto|].
  rewrite (obj_at_nth _ _ _ Ex). destruct x; cbn; try rewrite Ht; try reflexivity. contradiction.
Qed.
Lemma check_disabled : forall t s o v, denotes (heap s) o v -> disabled v ->
  late (fun f => check_arg f false t o s = Err (with_among true s)).
Proof.
  intros t s o v D Hv.
  exists (S (vdepth v)). intros f L. destruct (flat_spec s v o f D L) as (b & Eb & B1 & B2).
  unfold check_arg. rewrite Eb, B1 by exact Hv. reflexivity.
Qed.
Lemma local_args_ok : forall os ts args s s' vals, arguments other method ts args s s' vals ->
  late (fun f => local_args f (E f) false ts os args s = Ok s' vals).
Proof.
  intros os. induction 1 as [s|t ts e es s s1 o s2 vs H1 H2 H3 IH].
  - exists 0. intros f _. cbn. now destruct os.
  - apply check_accepted in H2. lates. cbn [local_args]. unfold bind. rew. reflexivity.
Qed.
Lemma local_args_stop : forall os ts args s s', stopped other method ts args s s' ->
  late (fun f => local_args f (E f) false ts os args s = Err (with_among true s')).
Proof.
  intros os. induction 1 as [t ts e es s s1 o v H1 H2 H3|t ts e es s s1 o s2 H1 H2 H3 IH].
  - apply (check_disabled t) in H2; [|exact H3]. lates. cbn [local_args]. unfold bind. rew. reflexivity.
  - apply check_accepted in H2. lates. cbn [local_args]. unfold bind. rew. reflexivity.
Qed.
Lemma optional_stop : forall os args s s', stopped other method os args s s' ->
  late (fun f => local_args f (E f) false [] os args s = Err (with_among true s')).
Proof.
  induction 1 as [t ts e es s s1 o v H1 H2 H3|t ts e es s s1 o s2 H1 H2 H3 IH].
  - apply (check_disabled t) in H2; [|exact H3]. lates. cbn [local_args]. unfold bind. rew. reflexivity.
  - apply check_accepted in H2. lates. cbn [local_args] in *. unfold bind in *. rew. reflexivity.
Qed.
(** [ts] required and [os] optional arguments *)
Lemma local_args_stop2 : forall os ts args s s', stopped other method (ts ++ os) args s s' ->
  late (fun f => local_args f (E f) false ts os args s = Err (with_among true s')).
Proof.
  intros os. induction ts as [|t ts IH]; intros args s s' H; [now apply optional_stop|].
  cbn [app] in H. inversion H as [? ? e es ? ? o v H1 H2 H3|? ? e es ? s1 o ? H1 H2 H3]; subst.
  - apply (check_disabled t) in H2; [|exact H3]. clear H. lates. cbn [local_args]. unfold bind. rew. reflexivity.
  - apply check_accepted in H2. apply IH in H3. clear H IH. lates. cbn [local_args]. unfold bind. rew. reflexivity.
Qed.
Lemma absorb_among : forall (m : M nat) s s', m s = Err (with_among true s') -> absorb m s = Ok (with_among false s') disabler_id.
Proof. intros m s s' H. unfold absorb. rewrite H. reflexivity. Qed.

Lemma static_check : forall a t o s f r, check_arg f false t o s = res_map (fun s => s) r ->
  check_arg f false t o (with_an a s) = res_map (with_an a) r.
Proof. intros a t o s f r H. rewrite check_an, H. now destruct r. Qed.
Lemma an_set : forall a b s, with_an a (with_an b s) = with_an a s. Proof. reflexivity. Qed.
Lemma set_an : forall done o (l : list (bool * nat)),
  upd (length done) (fst (nth (length done) (done ++ (false, 0) :: l) (true, 0)), o) (done ++ (false, 0) :: l) =
  (done ++ [(false, o)]) ++ l.
Proof.
  intros done o l. rewrite app_nth2, Nat.sub_diag by lia. cbn [nth fst]. rewrite <- app_assoc. cbn [app].
  induction done as [|d done IHd]; cbn; [reflexivity|now rewrite IHd].
Qed.
Lemma static_ok : forall rest args vals s s' done, Forall (quiet other) args ->
  arguments other method (repeat t_any (length args)) args s s' vals ->
  late (fun f => static_args f (E f) args (length done)
    (with_an (done ++ repeat (false, 0) (length args) ++ (true, 0) :: rest) s) =
    Ok (with_an (done ++ map (pair false) vals ++ (true, 0) :: rest) s') tt).
Proof.
  intros rest. induction args as [|e args IH]; intros vals s s' done Q A; cbn [length repeat] in A; inversion A; subst.
  - exists 0. intros f _. cbn [static_args repeat length app map]. unfold bind, get. cbn [an with_an].
    rewrite app_nth2, Nat.sub_diag by lia. reflexivity.
  - inversion Q as [|? ? Qe Qes]; subst.
    match goal with H : accepted _ _ _ |- _ => apply check_accepted in H; rename H into HA end.
    match goal with H : arguments _ _ _ args _ _ _ |- _ => apply (IH _ _ _ (done ++ [(false, o)]) Qes) in H; rename H into HI end.
    clear IH A. lates. cbn [static_args repeat length app map]. unfold bind, get. cbn [an with_an].
    rewrite app_nth2, Nat.sub_diag by lia. cbn [nth fst].
    rewrite quiet_an by exact Qe. rew. cbn [res_map]. unfold put. cbn [an with_an].
    rewrite an_set, set_an, check_an. rew. cbn [res_map an with_an].
    rewrite app_nth1, app_nth2, Nat.sub_diag by (rewrite ?app_length; cbn; lia). cbn [nth fst].
    rewrite app_length in *. cbn [length] in *. rew. rewrite <- app_assoc. reflexivity.
Qed.
Lemma static_stop : forall rest args s s' done, Forall (quiet other) args ->
  stopped other method (repeat t_any (length args)) args s s' ->
  exists a, late (fun f => static_args f (E f) args (length done)
    (with_an (done ++ repeat (false, 0) (length args) ++ (true, 0) :: rest) s) =
    Err (with_among true (with_an a s'))).
Proof.
  intros rest. induction args as [|e args IH]; intros s s' done Q A; cbn [length repeat] in A;
    [inversion A|]. inversion Q as [|? ? Qe Qes]; subst.
  inversion A as [? ? ? ? ? ? o v H1 H2 H3|? ? ? ? ? s1 o ? H1 H2 H3]; subst.
  - apply (check_disabled t_any) in H2; [|exact H3].
    exists ((done ++ [(false, o)]) ++ repeat (false, 0) (length args) ++ (true, 0) :: rest).
    clear A IH. lates. cbn [static_args repeat length app map]. unfold bind, get. cbn [an with_an].
    rewrite app_nth2, Nat.sub_diag by lia. cbn [nth fst].
    rewrite quiet_an by exact Qe. rew. cbn [res_map]. unfold put. cbn [an with_an].
    rewrite an_set, set_an, check_an. rew. reflexivity.
  - apply check_accepted in H2. destruct (IH s1 s' (done ++ [(false, o)]) Qes H3) as [a HI]. exists a.
    clear IH A. lates. cbn [static_args repeat length app map]. unfold bind, get. cbn [an with_an].
    rewrite app_nth2, Nat.sub_diag by lia. cbn [nth fst].
    rewrite quiet_an by exact Qe. rew. cbn [res_map]. unfold put. cbn [an with_an].
    rewrite an_set, set_an, check_an. rew. cbn [res_map an with_an].
    rewrite app_nth1, app_nth2, Nat.sub_diag by (rewrite ?app_length; cbn; lia). cbn [nth fst].
    rewrite app_length in *. cbn [length] in *. rew. reflexivity.
Qed.

Lemma kernel_rest : forall fuel E f args, ~ In f kernel_names ->
  kernel other fuel E f args =
  match other f with
  | Some (ts, g) =>
      Some (bind (local_args fuel E false ts [] args) (fun l =>
            fun s => match g (heap s) l with
                     | Some (new, o) => Ok (with_heap (heap s ++ new) s) o
                     | None => Err s
                     end))
  | None => None
  end.
Proof.
  intros fuel E f args N. unfold kernel.
  assert (K : forall k, In k kernel_names -> beqb f k = false).
  { intros k I. apply beqb_neq. intros ->. contradiction. }
  rewrite !K by (unfold kernel_names; cbn [In]; tauto). reflexivity.
Qed.
End Call.
