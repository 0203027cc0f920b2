(** More fuel does not change a result. *)
From Verif Require Import Base M_Interp S_Interp L_Interp.

Definition le_res {A} (r r' : res A) : Prop := r = OutOfFuel \/ r' = r.
Definition mono {A} (m m' : M A) : Prop := forall s, le_res (m s) (m' s).

Lemma mono_refl : forall {A} (m : M A), mono m m.
Proof. intros A m s. now right. Qed.
Lemma mono_out : forall {A} (m : M A), mono (fun _ => OutOfFuel) m.
Proof. intros A m s. now left. Qed.
Lemma mono_bind : forall {A B} (m m' : M A) (f f' : A -> M B),
  mono m m' -> (forall a, mono (f a) (f' a)) -> mono (bind m f) (bind m' f').
Proof.
  intros A B m m' f f' Hm Hf s. unfold bind. destruct (Hm s) as [-> | ->]; [now left|].
  destruct (m s); try (now right). apply Hf.
Qed.

Lemma equal_mono : forall f f' s l r b, f <= f' -> equal f s l r = Some b -> equal f' s l r = Some b.
Proof.
  induction f as [|f IH]; intros f' s l r b L H; [discriminate|].
  destruct f' as [|f']; [lia|]. cbn [equal] in *.
  destruct (l =? r); [exact H|].
  destruct (obj_at s l) as [| | | | |la|la|]; try exact H;
    destruct (obj_at s r) as [| | | | |lb|lb|]; try exact H;
    (destruct (length la =? length lb) eqn:E; [|exact H]); clear E.
  - revert lb H. induction la as [|x la IHl]; intros lb H; [exact H|].
    destruct lb as [|y lb]; [exact H|].
    destruct (equal f s x y) as [[]|] eqn:Ex; [| |discriminate].
    + rewrite (IH f' _ _ _ true ltac:(lia) Ex). now apply IHl.
    + rewrite (IH f' _ _ _ false ltac:(lia) Ex). exact H.
  - induction la as [|[k x] la IHl]; [exact H|].
    destruct (dict_lookup lb k) as [y|]; [|exact H].
    destruct (equal f s x y) as [[]|] eqn:Ex; [| |discriminate].
    + rewrite (IH f' _ _ _ true ltac:(lia) Ex). now apply IHl.
    + rewrite (IH f' _ _ _ false ltac:(lia) Ex). exact H.
Qed.
Lemma flat_mono : forall f f' s o b, f <= f' -> flat_disabler f s o = Some b -> flat_disabler f' s o = Some b.
Proof.
  induction f as [|f IH]; intros f' s o b L H; [discriminate|].
  destruct f' as [|f']; [lia|]. cbn [flat_disabler] in *.
  destruct (obj_at s o) as [| | | | |l|l|]; try exact H.
  revert b H. induction l as [|x l IHl]; intros b H; [exact H|].
  destruct (flat_disabler f s x) as [a|] eqn:Ex; [|discriminate].
  rewrite (IH f' _ _ a ltac:(lia) Ex).
  match type of H with match ?X with _ => _ end = _ => destruct X as [c|] eqn:Ec; [|discriminate] end.
  rewrite (IHl c eq_refl). exact H.
Qed.
Lemma range_list_mono : forall f f' i stop step l, f <= f' ->
  range_list f i stop step = Some l -> range_list f' i stop step = Some l.
Proof.
  induction f as [|f IH]; intros f' i stop step l L H; [discriminate|].
  destruct f' as [|f']; [lia|]. cbn [range_list] in *.
  destruct (i <? stop)%Z; [|exact H].
  destruct (range_list f _ stop step) as [l1|] eqn:E; [|discriminate].
  rewrite (IH f' _ _ _ l1 ltac:(lia) E). exact H.
Qed.

Section Mono.
Variable other : bytes -> option builtin.
Variable method : obj -> bytes -> option builtin.
Variable fuel fuel' : nat.
Variable E E' : expr -> M nat.
Variable Bk Bk' : list stmt -> M nat.
Hypothesis Hf : fuel <= fuel'.
Hypothesis HE : forall e, mono (E e) (E' e).
Hypothesis HB : forall b, mono (Bk b) (Bk' b).

Ltac mono_step :=
  first
  [ apply mono_refl
  | apply HE
  | apply HB
  | apply mono_bind; [|intros ?]
  | match goal with
    | |- mono (if ?b then _ else _) _ => destruct b
    | |- mono (match ?x with _ => _ end) _ => destruct x
    | |- mono (let '(_, _) := ?x in _) _ => destruct x
    end ].
Ltac mono_auto := repeat mono_step.

Lemma eval_list_mono : forall es, mono (eval_list E es) (eval_list E' es).
Proof. induction es; cbn [eval_list]; mono_auto. apply IHes. Qed.
Lemma eval_dict_mono : forall kvs d, mono (eval_dict E kvs d) (eval_dict E' kvs d).
Proof. induction kvs as [|[k v] kvs IH]; intros d; cbn [eval_dict]; mono_auto. apply IH. Qed.
Lemma arithmetic_mono : forall op p a b, mono (arithmetic E op p a b) (arithmetic E' op p a b).
Proof. intros. unfold arithmetic. mono_auto. Qed.
Lemma comparison_mono : forall op a b, mono (comparison fuel E op a b) (comparison fuel' E' op a b).
Proof.
  intros. unfold comparison. mono_step; [mono_auto|]. mono_step; [mono_auto|].
  mono_step; [mono_auto|].
  assert (Q : forall s r, equal fuel s a0 r = None \/ equal fuel' s a0 r = equal fuel s a0 r).
  { intros s r. destruct (equal fuel s a0 r) eqn:X; [|now left]. right. now apply (equal_mono fuel fuel'). }
  mono_step; [|mono_auto]. destruct op; try (now mono_auto).
  - intros s. destruct (Q s a1) as [-> | ->]; [now left|now right].
  - intros s. destruct (Q s a1) as [-> | ->]; [now left|now right].
  - mono_step; [mono_auto|]. mono_step; [|mono_auto]. destruct a2; try (now mono_auto).
    intros s. induction l as [|x l IHl]; [now right|].
    destruct (Q s x) as [-> | ->]; [now left|]. destruct (equal fuel s a0 x) as [[]|]; [now right|exact IHl|now left].
  - mono_step; [mono_auto|]. mono_step; [|mono_auto]. destruct a2; try (now mono_auto).
    intros s. induction l as [|x l IHl]; [now right|].
    destruct (Q s x) as [-> | ->]; [now left|]. destruct (equal fuel s a0 x) as [[]|]; [now right|exact IHl|now left].
Qed.
Lemma index_mono : forall a i, mono (index E a i) (index E' a i).
Proof. intros. unfold index. mono_auto. Qed.
Lemma check_arg_mono : forall im t o, mono (check_arg fuel im t o) (check_arg fuel' im t o).
Proof.
  intros im t o s. unfold check_arg. destruct im; [now right|].
  destruct (flat_disabler fuel s o) as [b|] eqn:X; [|now left]. rewrite (flat_mono _ fuel' _ _ _ Hf X). now right.
Qed.
Lemma local_args_mono : forall im ts os args, mono (local_args fuel E im ts os args) (local_args fuel' E' im ts os args).
Proof.
  induction ts as [|t ts IH]; intros os args.
  - cbn [local_args]. revert args. induction os as [|t os IHo]; intros args; destruct args as [|e args]; mono_auto;
      [apply check_arg_mono|apply IHo].
  - cbn [local_args]. destruct args as [|e args]; mono_auto; [apply check_arg_mono|apply IH].
Qed.
Lemma static_args_mono : forall args i, mono (static_args fuel E args i) (static_args fuel' E' args i).
Proof.
  induction args as [|e args IH]; intros i; cbn [static_args]; mono_auto; [apply check_arg_mono|apply IH].
Qed.
Lemma func_obj_call_mono : forall p r b st v, mono (func_obj_call Bk p r b st v) (func_obj_call Bk' p r b st v).
Proof.
  intros. unfold func_obj_call. mono_auto. intros s. destruct (HB b s) as [-> | ->]; [now left|now right].
Qed.
Lemma func_obj_eval_mono : forall f args, mono (func_obj_eval fuel E Bk f args) (func_obj_eval fuel' E' Bk' f args).
Proof.
  intros. unfold func_obj_eval. mono_step; [mono_auto|]. destruct a; try apply mono_refl.
  destruct (64 <=? _); [apply mono_refl|]. mono_step; [mono_auto|]. mono_step; [apply static_args_mono|].
  mono_step; [mono_auto|]. apply func_obj_call_mono.
Qed.
Lemma absorb_mono : forall m m', mono m m' -> mono (absorb m) (absorb m').
Proof. intros m m' H s. unfold absorb. destruct (H s) as [-> | ->]; [now left|now right]. Qed.
Lemma range_args_mono : forall args, mono (range_args fuel E args) (range_args fuel' E' args).
Proof. intros. unfold range_args. mono_auto. apply local_args_mono. Qed.
Lemma kernel_mono : forall f args,
  match kernel other fuel E f args, kernel other fuel' E' f args with
  | Some m, Some m' => mono m m' | None, None => True | _, _ => False end.
Proof.
  intros f args. unfold kernel.
  repeat match goal with |- context [if beqb f ?x then _ else _] => destruct (beqb f x) end;
    try (apply mono_bind; [apply local_args_mono|intros ?; now mono_auto]).
  - apply mono_bind; [apply range_args_mono|]. intros [[[a b] c]|]; [|mono_auto].
    intros s. destruct (range_list fuel a b c) as [l|] eqn:X; [|now left].
    rewrite (range_list_mono _ fuel' _ _ _ _ Hf X). now right.
  - destruct (other f) as [[ts g]|]; [|exact I].
    apply mono_bind; [apply local_args_mono|intros ?; now mono_auto].
Qed.
Lemma call_mono : forall f args, mono (call other fuel E Bk f args) (call other fuel' E' Bk' f args).
Proof.
  intros f args. unfold call. assert (K := kernel_mono f args).
  destruct (kernel other fuel E f args) as [m|]; destruct (kernel other fuel' E' f args) as [m'|]; try contradiction.
  - now apply absorb_mono.
  - mono_auto. apply absorb_mono, func_obj_eval_mono.
Qed.
Lemma method_call_mono : forall e m args, mono (method_call method fuel E e m args) (method_call method fuel' E' e m args).
Proof.
  intros. unfold method_call. mono_auto; apply absorb_mono; (apply mono_bind; [apply local_args_mono|intros ?; now mono_auto]).
Qed.
Lemma node_expr_mono : forall e, mono (node_expr other method fuel E Bk e) (node_expr other method fuel' E' Bk' e).
Proof.
  destruct e; cbn [node_expr];
    try apply comparison_mono; try apply arithmetic_mono; try apply index_mono; try apply call_mono;
    try apply method_call_mono; mono_auto; try apply eval_list_mono; try apply eval_dict_mono.
Qed.
Lemma foreach_common_mono : forall body, mono (foreach_common Bk body) (foreach_common Bk' body).
Proof. intros. unfold foreach_common. mono_auto. Qed.
Lemma foreach_array_mono : forall f f' x body arr i, f <= f' ->
  mono (foreach_array Bk f x body arr i) (foreach_array Bk' f' x body arr i).
Proof.
  induction f as [|f IH]; intros f' x body arr i L; [apply mono_out|].
  destruct f' as [|f']; [lia|]. cbn [foreach_array]. mono_auto; [apply foreach_common_mono|apply IH; lia].
Qed.
Lemma foreach_dict_mono : forall k v body d ks todo,
  mono (foreach_dict Bk k v body d ks todo) (foreach_dict Bk' k v body d ks todo).
Proof.
  induction todo as [|key todo IH]; cbn [foreach_dict]; mono_auto; [apply foreach_common_mono|apply IH].
Qed.
Lemma foreach_range_mono : forall f f' x body i stop step, f <= f' ->
  mono (foreach_range Bk f x body i stop step) (foreach_range Bk' f' x body i stop step).
Proof.
  induction f as [|f IH]; intros f' x body i stop step L; [apply mono_out|].
  destruct f' as [|f']; [lia|]. cbn [foreach_range]. mono_auto; [apply foreach_common_mono|apply IH; lia].
Qed.
Lemma node_stmt_mono : forall st, mono (node_stmt fuel E Bk st) (node_stmt fuel' E' Bk' st).
Proof.
  destruct st as [e|x e|x e|c t f|x e body|k v e body| | |e|f p r body]; cbn [node_stmt];
    try (now mono_auto).
  - destruct e; try (mono_auto; now apply foreach_array_mono).
    mono_auto; try apply local_args_mono; try (now apply foreach_array_mono); now apply foreach_range_mono.
  - mono_auto. apply foreach_dict_mono.
Qed.
Lemma node_block_mono : forall (S1 S1' : stmt -> M nat) b o, (forall st, mono (S1 st) (S1' st)) ->
  mono (node_block S1 b o) (node_block S1' b o).
Proof. induction b as [|st b IH]; intros o H; cbn [node_block]; mono_auto; [apply H|now apply IH]. Qed.
End Mono.

Section Interp.
Variable other : bytes -> option builtin.
Variable method : obj -> bytes -> option builtin.
Notation interp := (interp other method).
Notation evaluates := (evaluates other method).

Lemma interp_mono : forall f f' n, f <= f' -> mono (interp f n) (interp f' n).
Proof.
  induction f as [|f IH]; intros f' n L; [apply mono_out|].
  destruct f' as [|f']; [lia|]. cbn [M_Interp.interp].
  assert (L' : f <= f') by lia.
  assert (G : forall m m', mono m m' -> mono (guarded m) (guarded m')).
  { intros m m' H s. unfold guarded. destruct (ctl s); try (now right). destruct (returning s); [now right|apply H]. }
  apply G. destruct n.
  - apply node_expr_mono; auto.
  - apply node_stmt_mono; auto.
  - apply node_block_mono. auto.
Qed.

Lemma interp_le : forall f f' n s, f <= f' -> interp f n s <> OutOfFuel -> interp f' n s = interp f n s.
Proof. intros f f' n s L N. destruct (interp_mono f f' n L s) as [H|H]; [contradiction|exact H]. Qed.
Lemma evaluates_fuel : forall n s s' o, evaluates n s s' o ->
  exists f0, forall f, f0 <= f -> interp f n s = Ok s' o.
Proof.
  intros n s s' o [f H]. exists f. intros f' L. rewrite (interp_le f f' n s L), H; [reflexivity|congruence].
Qed.
Lemma evaluates_det : forall n s s1 s2 o1 o2, evaluates n s s1 o1 -> evaluates n s s2 o2 -> s1 = s2 /\ o1 = o2.
Proof.
  intros n s s1 s2 o1 o2 H1 H2. apply evaluates_fuel in H1, H2. destruct H1 as [f1 H1], H2 as [f2 H2].
  specialize (H1 (f1 + f2) ltac:(lia)). specialize (H2 (f1 + f2) ltac:(lia)).
  rewrite H1 in H2. inversion H2. auto.
Qed.
End Interp.
