(** C41: and/or; C42: disablers. *)
From Verif Require Import Base M_Interp S_Interp L_Interp L_Mono L_Eval L_Call.

Section Logic.
Variable other : bytes -> option builtin.
Variable method : obj -> bytes -> option builtin.
Notation evaluates := (evaluates other method).
Notation errs := (errs other method).
Notation crashes := (crashes other method).

(** ** and, or *)
(** What evaluating [a and b] (with [d] = false) or [a or b] (with [d] = true) in [s] may come to: *)
Inductive junction (d : bool) (a b : expr) (s : state) : state -> nat -> Prop :=
(* the left operand is [d]: it decides, and the right one is not evaluated *)
| jn_decided s1 l :
    evaluates (NExpr a) s s1 l -> l <> disabler_id -> nth_error (heap s1) l = Some (OBool d) ->
    junction d a b s (made [OBool d] s1) (length (heap s1))
(* it is not: the result is the right operand's, evaluated after it *)
| jn_right s1 l s2 r c :
    evaluates (NExpr a) s s1 l -> l <> disabler_id -> nth_error (heap s1) l = Some (OBool (negb d)) ->
    evaluates (NExpr b) s1 s2 r -> r <> disabler_id -> nth_error (heap s2) r = Some (OBool c) ->
    junction d a b s (made [OBool c] s2) (length (heap s2))
(* disablers *)
| jn_disabled_left s1 : evaluates (NExpr a) s s1 disabler_id -> junction d a b s s1 disabler_id
| jn_disabled_right s1 l s2 :
    evaluates (NExpr a) s s1 l -> l <> disabler_id -> nth_error (heap s1) l = Some (OBool (negb d)) ->
    evaluates (NExpr b) s1 s2 disabler_id -> junction d a b s s2 disabler_id.

Lemma obj_bool : forall s o b, obj_at s o = OBool b -> nth_error (heap s) o = Some (OBool b).
Proof.
  intros s o b H. unfold obj_at in H. destruct (nth_error (heap s) o) as [x|] eqn:N.
  - rewrite (nth_error_nth _ _ _ N) in H. congruence.
  - rewrite nth_overflow in H by (now apply nth_error_None). discriminate.
Qed.
Lemma bool_of_ok : forall o s s' b, bool_of o s = Ok s' b -> s' = s /\ nth_error (heap s) o = Some (OBool b).
Proof.
  intros o s s' b H. unfold bool_of, bind, look in H. destruct (obj_at s o) eqn:X; try discriminate.
  cbn in H. inversion H; subst. split; [reflexivity|]. now apply obj_bool.
Qed.
Lemma of_bool : forall o s b, nth_error (heap s) o = Some (OBool b) -> bool_of o s = Ok s b.
Proof. intros o s b H. unfold bool_of, bind, look. apply obj_at_nth in H. now rewrite H. Qed.

Lemma junction_ok : forall (d : bool) e a b s s' o, idle s ->
  (forall f (E : expr -> M nat) (Bk : list stmt -> M nat), node_expr other method f E Bk e =
    bind (E a) (fun o => if o =? disabler_id then ret disabler_id : M nat else
      bind (bool_of o) (fun c : bool => if (if d then c else negb c) then make (OBool d) else
        bind (E b) (fun o => if o =? disabler_id then ret disabler_id else
          bind (bool_of o) (fun c : bool => make (OBool c)))))) ->
  (evaluates (NExpr e) s s' o <-> junction d a b s s' o).
Proof.
  intros d e a b s s' o I Hd. split.
  - intros H. apply ev_expr_inv in H; [|exact I]. destruct H as [f H]. specialize (H f (le_n f)).
    rewrite Hd in H. apply bind_ok in H. destruct H as (s1 & l & H1 & H).
    apply evaluates_at in H1. destruct (l =? disabler_id) eqn:El.
    { apply Nat.eqb_eq in El. inversion H; subst. now apply jn_disabled_left. }
    apply Nat.eqb_neq in El. apply bind_ok in H. destruct H as (s1' & c & H2 & H).
    apply bool_of_ok in H2. destruct H2 as [-> Hl].
    destruct (if d then c else negb c) eqn:Ec.
    { inversion H; subst. eapply jn_decided; [exact H1|exact El|]. destruct d, c; try discriminate; exact Hl. }
    assert (Hl' : nth_error (heap s1) l = Some (OBool (negb d))) by (destruct d, c; try discriminate; exact Hl).
    apply bind_ok in H. destruct H as (s2 & r & H2 & H). apply evaluates_at in H2.
    destruct (r =? disabler_id) eqn:Er.
    { apply Nat.eqb_eq in Er. inversion H; subst. eapply jn_disabled_right; eassumption. }
    apply Nat.eqb_neq in Er. apply bind_ok in H. destruct H as (s2' & c' & H3 & H).
    apply bool_of_ok in H3. destruct H3 as [-> Hr]. inversion H; subst. eapply jn_right; eassumption.
  - intros H. apply ev_expr; [exact I|]. destruct H as [s1 l H1 N Hl|s1 l s2 r c H1 N Hl H2 Nr Hr|s1 H1|s1 l s2 H1 N Hl H2];
      try apply Nat.eqb_neq in N; try apply Nat.eqb_neq in Nr; try apply of_bool in Hl; try apply of_bool in Hr; clear I;
      lates; rewrite Hd; clear Hd; unfold bind; rew; try reflexivity.
    + destruct d; reflexivity.
    + destruct d; cbn [negb]; rew; reflexivity.
    + destruct d; cbn [negb]; rew; reflexivity.
Qed.
Theorem C41_and : forall a b s s' o, idle s ->
  (evaluates (NExpr (EAnd a b)) s s' o <-> junction false a b s s' o).
Proof. intros. now apply junction_ok. Qed.
Theorem C41_or : forall a b s s' o, idle s ->
  (evaluates (NExpr (EOr a b)) s s' o <-> junction true a b s s' o).
Proof. intros. now apply junction_ok. Qed.

(** In particular the result is the conjunction or disjunction of the operands, and when the left
    operand decides it is the same whatever the right one is, even one that fails or never ends. *)
Theorem C41_short_circuit : forall a b b' s s1 l d, idle s ->
  evaluates (NExpr a) s s1 l -> l <> disabler_id -> nth_error (heap s1) l = Some (OBool d) ->
  let join := if d then EOr else EAnd in
  evaluates (NExpr (join a b)) s (made [OBool d] s1) (length (heap s1)) /\
  evaluates (NExpr (join a b')) s (made [OBool d] s1) (length (heap s1)).
Proof.
  intros a b b' s s1 l d I H N Hl join. unfold join. destruct d; split;
    first [apply C41_or|apply C41_and]; try exact I; eapply jn_decided; eassumption.
Qed.
Theorem C41_truth_table : forall a b s s1 l s2 r x y, idle s ->
  evaluates (NExpr a) s s1 l -> l <> disabler_id -> nth_error (heap s1) l = Some (OBool x) ->
  evaluates (NExpr b) s1 s2 r -> r <> disabler_id -> nth_error (heap s2) r = Some (OBool y) ->
  (exists s' o, evaluates (NExpr (EAnd a b)) s s' o /\ nth_error (heap s') o = Some (OBool (x && y))) /\
  (exists s' o, evaluates (NExpr (EOr a b)) s s' o /\ nth_error (heap s') o = Some (OBool (x || y))).
Proof.
  intros a b s s1 l s2 r x y I Ha Nl Hl Hb Nr Hr.
  assert (T : forall s c, nth_error (heap (made [OBool c] s)) (length (heap s)) = Some (OBool c)).
  { intros s0 c. cbn. now rewrite nth_error_app2, Nat.sub_diag by lia. }
  assert (D : forall d, junction d a b s (made [OBool x] s1) (length (heap s1)) \/ x = negb d).
  { intros d. destruct (Bool.bool_dec x d) as [<-|N]; [left; eapply jn_decided; eassumption|right; now destruct x, d]. }
  assert (K : junction (negb x) a b s (made [OBool y] s2) (length (heap s2))).
  { eapply jn_right; try eassumption. now rewrite negb_involutive. }
  assert (J : junction x a b s (made [OBool x] s1) (length (heap s1))) by (eapply jn_decided; eassumption).
  destruct x; cbn [negb] in K; cbn [andb orb]; split;
    do 2 eexists; (split; [first [apply C41_and; [exact I|eassumption]|apply C41_or; [exact I|eassumption]]|apply T]).
Qed.
Lemma only_bools : forall s o, (forall c, nth_error (heap s) o <> Some (OBool c)) ->
  bool_of o s = Err s \/ bool_of o s = Crash.
Proof.
  intros s o H. unfold bool_of, bind, look.
  destruct (obj_at s o) as [| |b| | | | |] eqn:X; auto. apply obj_bool in X. exfalso. now apply (H b).
Qed.

(** ** Disablers *)
Theorem C42_operators : forall e s s1, idle s -> evaluates (NExpr e) s s1 disabler_id ->
  evaluates (NExpr (ENot e)) s s1 disabler_id /\
  evaluates (NExpr (ENeg e)) s s1 disabler_id /\
  (forall b, evaluates (NExpr (EAnd e b)) s s1 disabler_id) /\
  (forall b, evaluates (NExpr (EOr e b)) s s1 disabler_id) /\
  (forall a b, evaluates (NExpr (ETernary e a b)) s s1 disabler_id) /\
  (forall t f, evaluates (NStmt (SIf e t f)) s s1 disabler_id) /\
  (forall m args, m <> B "found" -> nth_error (heap s1) disabler_id = Some ODisabler ->
     evaluates (NExpr (EMethod e m args)) s s1 disabler_id).
Proof.
  intros e s s1 I H. repeat split; intros;
    first [apply ev_expr; [exact I|]|apply ev_stmt; [exact I|]]; lates; cbn [node_expr node_stmt];
    unfold method_call, bind; rew; try reflexivity.
  cbn [Nat.eqb disabler_id]. unfold look. rewrite (obj_at_nth _ _ _ H1).
  destruct (beqb m (B "found")) eqn:Em; [apply beqb_eq in Em; contradiction|]. reflexivity.
Qed.
(** both operands are evaluated, nothing else happens *)
Theorem C42_binary : forall a b s s1 l s2 r, idle s ->
  evaluates (NExpr a) s s1 l -> evaluates (NExpr b) s1 s2 r ->
  l = disabler_id \/ r = disabler_id ->
  (forall op, evaluates (NExpr (EArith op a b)) s s2 disabler_id) /\
  (forall op, evaluates (NExpr (ECmp op a b)) s s2 disabler_id) /\
  (l = disabler_id -> nth_error (heap s2) disabler_id = Some ODisabler ->
   evaluates (NExpr (EIndex a b)) s s2 disabler_id).
Proof.
  intros a b s s1 l s2 r I Ha Hb D.
  assert (X : ((l =? disabler_id) || (r =? disabler_id))%bool = true).
  { apply orb_true_iff. rewrite !Nat.eqb_eq. exact D. }
  repeat split; [intros op|intros op|intros -> Hd]; (apply ev_expr; [exact I|]); lates; cbn [node_expr].
  - unfold arithmetic, bind. rew. reflexivity.
  - unfold comparison, bind. rew. reflexivity.
  - unfold index, bind. rew. unfold look. rewrite (obj_at_nth _ _ _ Hd). reflexivity.
Qed.

(** Calls.  When the evaluation of the arguments comes to one that is or holds a disabler, the call
    ends there: it is a disabler, later arguments are not evaluated, and the function is not run.
    ([with_among false] resets the flag that the code uses to get out of the argument list.) *)
Notation stopped := (stopped other method).
Theorem C42_builtin : forall f ts g args s s1, idle s ->
  ~ In f kernel_names -> other f = Some (ts, g) -> stopped ts args s s1 ->
  evaluates (NExpr (ECall f args)) s (with_among false s1) disabler_id.
Proof.
  intros f ts g args s s1 I N Ho H. apply ev_expr; [exact I|]. apply (local_args_stop other method []) in H.
  lates. cbn [node_expr]. unfold call. rewrite kernel_rest by exact N. rewrite Ho.
  apply absorb_among. unfold bind. rew. reflexivity.
Qed.
Definition a_string (x : obj) : bool := match x with OStr _ => true | _ => false end.
Definition a_number (x : obj) : bool := match x with ONum _ => true | _ => false end.
Theorem C42_kernel : forall args s s1, idle s ->
  (stopped [a_string] args s s1 ->
   evaluates (NExpr (ECall (B "unset_variable") args)) s (with_among false s1) disabler_id) /\
  (stopped [a_number; a_number; a_number; a_number] args s s1 ->
   evaluates (NExpr (ECall (B "range") args)) s (with_among false s1) disabler_id).
Proof.
  intros args s s1 I. split; intros H; (apply ev_expr; [exact I|]).
  - apply (local_args_stop2 other method [] [t_str]) in H. lates. cbn [node_expr]. unfold call.
    match goal with |- context [kernel ?a ?b ?c ?d ?e] => let x := eval hnf in (kernel a b c d e) in change (kernel a b c d e) with x end.
    cbv iota. apply absorb_among. unfold bind at 1. rew. reflexivity.
  - apply (local_args_stop2 other method [t_num; t_num; t_num] [t_num]) in H. lates. cbn [node_expr]. unfold call.
    match goal with |- context [kernel ?a ?b ?c ?d ?e] => let x := eval hnf in (kernel a b c d e) in change (kernel a b c d e) with x end.
    cbv iota. apply absorb_among. unfold range_args, bind. rew. reflexivity.
Qed.
Theorem C42_method_argument : forall e m args ts g s s1 r x s2, idle s ->
  evaluates (NExpr e) s s1 r -> r <> 0 -> nth_error (heap s1) r = Some x -> ~ is_other x ->
  method x m = Some (ts, g) -> stopped ts args s1 s2 ->
  evaluates (NExpr (EMethod e m args)) s (with_among false s2) disabler_id.
Proof.
  intros e m args ts g s s1 r x s2 I H1 Nr Hx Ho Hm H2. apply ev_expr; [exact I|].
  apply (local_args_stop other method []) in H2. apply Nat.eqb_neq in Nr. apply obj_at_nth in Hx.
  lates. cbn [node_expr]. unfold method_call. unfold bind at 1. rew. unfold bind at 1, look. rew.
  assert (G : absorb (bind (local_args f (fun e0 => interp other method f (NExpr e0)) false ts [] args) (fun l =>
                  fun s => match g (heap s) (r :: l) with
                           | Some (new, o) => Ok (with_heap (heap s ++ new) s) o
                           | None => Err s
                           end)) s1 = Ok (with_among false s2) disabler_id).
  { apply absorb_among. unfold bind. rew. reflexivity. }
  destruct x; try (exfalso; apply Ho; exact Logic.I); try rewrite Hm; exact G.
Qed.
Theorem C42_user_call : forall f fo ps r body st args s s1, idle s ->
  user_call other f -> get_variable s f = Some fo -> nth_error (heap s) fo = Some (OFunc ps r body st) ->
  length args = length ps -> length ps < 63 -> Forall (quiet other) args ->
  stopped (map (fun _ _ => true) ps) args s s1 ->
  exists a, evaluates (NExpr (ECall f args)) s (with_among false (with_an a s1)) disabler_id.
Proof.
  intros f fo ps r body st args s s1 I [N Ho] G Hf Ll L63 Q H.
  assert (Et : map (fun (_ : bytes) (_ : obj) => true) ps = repeat t_any (length args)).
  { rewrite Ll. clear. induction ps as [|p ps IH]; cbn; [reflexivity|]. f_equal. exact IH. }
  rewrite Et in H.
  destruct (static_stop other method (skipn (length ps + 1) (an s)) args s s1 [] Q H) as [a HS].
  exists a. apply ev_expr; [exact I|].
  assert (Ev : evaluates (NExpr (EVar f)) s s fo) by (apply ev_var; auto).
  apply obj_at_nth in Hf. clear H I.
  lates. cbn [node_expr]. unfold call. rewrite kernel_rest by exact N. rewrite Ho. unfold bind at 1. rew.
  unfold bind at 1, look. rew. apply absorb_among. unfold func_obj_eval, bind, look. rew.
  replace (64 <=? length ps + 1) with false by (symmetry; apply Nat.leb_gt; lia).
  unfold put. cbn [app length]. rewrite <- Ll. cbn [length app] in *. rewrite Ll at 2. rew. reflexivity.
Qed.
End Logic.

Print Assumptions C41_and.
Print Assumptions C41_or.
Print Assumptions C41_short_circuit.
Print Assumptions C41_truth_table.
Print Assumptions C42_operators.
Print Assumptions C42_binary.
Print Assumptions C42_builtin.
Print Assumptions C42_kernel.
Print Assumptions C42_method_argument.
Print Assumptions C42_user_call.

(** [1 == 2 and undefined] is false; [not (1 == 2) and 2 == 2] goes on to the right operand *)
Example C41_case :
  let eq a b := ECmp CEq (ENum a) (ENum b) in
  (exists s' o, junction none no_methods false (eq 1 2)%Z (EVar (B "undefined")) start_state s' o) /\
  (exists s' o, junction none no_methods false (ENot (eq 1 2)%Z) (eq 2 2)%Z start_state s' o /\
     nth_error (heap s') o = Some (OBool true)).
Proof.
  split.
  - do 2 eexists. eapply jn_decided; [exists 5; vm_compute; reflexivity|discriminate|reflexivity].
  - do 2 eexists. split; [eapply jn_right; [exists 5; vm_compute; reflexivity|discriminate|reflexivity|exists 5; vm_compute; reflexivity|discriminate|vm_compute; reflexivity]|].
    vm_compute. reflexivity.
Qed.
(** disablers deep inside the second of two arguments; a function with one parameter; a method *)
Definition pair_builtin (f : bytes) : option builtin :=
  if beqb f (B "files") then Some ([fun _ => true; fun _ => true], fun h l => Some ([], 0)) else None.
Definition disabler_call := ECall (B "disabler") [].
Definition with_f := after [SFunc (B "f") [B "x"] true [SReturn (EVar (B "x"))]; SAssign (B "d") disabler_call].
Example C42_case :
  stopped pair_builtin no_methods [fun _ => true; fun _ => true] [ENum 1; EArr [EArr [disabler_call]]] start_state
    (with_heap (heap start_state ++ [ONum 1; OArr [1]; OArr [5]]) start_state) /\
  stopped none no_methods [fun _ => true] [EVar (B "d")] with_f with_f /\
  user_call none (B "f") /\ quiet none (EVar (B "d")) /\ idle with_f /\
  (exists fo st, get_variable with_f (B "f") = Some fo /\
     nth_error (heap with_f) fo = Some (OFunc [B "x"] true [SReturn (EVar (B "x"))] st)).
Proof.
  split; [|split; [|split; [|split; [|split]]]].
  - eapply stopped_later; [exists 5; vm_compute; reflexivity| |].
    + split; [reflexivity|]. exists (VNum 1), (ONum 1). repeat split; try discriminate; [now constructor|intros X; inversion X].
    + eapply stopped_here with (v := VArr [VArr [VOther 1]]); [exists 9; vm_compute; reflexivity| |].
      * eapply dn_arr; [reflexivity|]. constructor; [|constructor]. eapply dn_arr; [reflexivity|].
        constructor; [|constructor]. eapply dn_other; [reflexivity|exact I].
      * constructor. constructor. constructor. constructor. constructor.
  - eapply stopped_here with (v := VOther 1); [exists 5; vm_compute; reflexivity| |constructor].
    eapply dn_other; [reflexivity|exact I].
  - split; [|reflexivity]. cbn. intuition discriminate.
  - constructor.
  - now split.
  - do 2 eexists. split; vm_compute; reflexivity.
Qed.

(** Not so for the index of an array, for calling a disabler, and for the functions about variables:
    the process is aborted. *)
Theorem C42_abort_refuted :
  crashes none no_methods (NExpr (EIndex (EArr [ENum 1]) disabler_call)) start_state /\
  crashes none no_methods (NExpr (ECall (B "d") [])) with_f /\
  crashes none no_methods (NExpr (ECall (B "set_variable") [disabler_call; ENum 1])) start_state /\
  crashes none no_methods (NExpr (ECall (B "is_variable") [disabler_call])) start_state.
Proof. repeat split; exists 9; vm_compute; reflexivity. Qed.
Print Assumptions C42_abort_refuted.
