(** A relation that every primitive step respects is respected by the whole interpreter. *)
From Verif Require Import Base M_Interp S_Interp L_Interp.

(** the part of the state that matters between statements *)
Definition core (s : state) := (heap s, scopes s, stacks s, cur s).


Lemma upd_snoc : forall {A} (l : list A) x y, upd (length l) y (l ++ [x]) = l ++ [y].
Proof. induction l as [|z l IH]; intros x y; cbn; [reflexivity|]. f_equal. apply IH. Qed.

Section Effects.
Variable other : bytes -> option builtin.
Variable method : obj -> bytes -> option builtin.
Hypothesis Hother : forall f b, other f = Some b -> tame b.
Hypothesis Hmethod : forall x m b, method x m = Some b -> tame b.
Notation interp := (interp other method).
Variable assigns plus unsets calls : bool.
Notation okE := (okE other assigns unsets calls).
Notation okS := (okS other assigns plus unsets calls).

Variable Inv : state -> Prop.
Variable R : state -> state -> Prop.
Definition post (s s' : state) : Prop := Inv s' /\ R s s'.
Definition pres {A} (m : M A) : Prop := forall s, Inv s ->
  match m s with Ok s' _ => post s s' | Err s' => post s s' | _ => True end.

Hypothesis H_core : forall s s', Inv s -> core s' = core s -> (calls = true \/ an s' = an s) -> post s s'.
Hypothesis H_trans : forall s1 s2 s3, R s1 s2 -> R s2 s3 -> R s1 s3.
Hypothesis H_make : forall s l, Inv s -> Forall not_func l -> post s (with_heap (heap s ++ l) s).
Hypothesis H_stable : forall s s' o ps r body st, Inv s -> R s s' -> obj_at s o = OFunc ps r body st ->
  obj_at s' o = OFunc ps r body st.
Hypothesis H_assign : forall x o, assigns = true -> pres (assign_local x o).
Hypothesis H_reassign : forall x o, plus = true -> pres (reassign x o).
Hypothesis H_store : forall o l l', plus = true -> forall s, Inv s -> obj_at s o = OArr l ->
  post s (with_heap (upd o (OArr l') (heap s)) s).
Hypothesis H_store_dict : forall o l l', plus = true -> forall s, Inv s -> obj_at s o = ODict l ->
  post s (with_heap (upd o (ODict l') (heap s)) s).
Hypothesis H_unassign : forall x, unsets = true -> pres (unassign x).
Hypothesis H_func : forall f ps r body, assigns = true -> Forall okS body ->
  pres (bind scope_stack_dup (fun st => bind (make (OFunc ps r body st)) (fun o => bind (assign_local f o) (fun _ => ret o)))).
Hypothesis H_call : forall fuel, (forall b, Forall okS b -> pres (interp fuel (NBlock b))) ->
  calls = true -> forall o ps r body st vals s, Inv s -> obj_at s o = OFunc ps r body st ->
  match func_obj_call (fun b => interp fuel (NBlock b)) ps r body st vals s with
  | Ok s' _ => post s s' | Err s' => post s s' | _ => True end.

Lemma post_trans : forall s1 s2 s3, post s1 s2 -> post s2 s3 -> post s1 s3.
Proof. intros s1 s2 s3 [I1 R1] [I2 R2]. split; [exact I2|]. eapply H_trans; eassumption. Qed.
Lemma post_refl : forall s, Inv s -> post s s.
Proof. intros s I. apply H_core; auto. Qed.

Lemma pres_ret : forall {A} (a : A), pres (ret a).
Proof. intros A a s I. now apply post_refl. Qed.
Lemma pres_fail : forall {A}, pres (@fail A).
Proof. intros A s I. now apply post_refl. Qed.
Lemma pres_crash : forall {A}, pres (@crash A).
Proof. intros A s I. exact Logic.I. Qed.
Lemma pres_get : pres get.
Proof. intros s I. now apply post_refl. Qed.
Lemma pres_look : forall o, pres (look o).
Proof. intros o s I. now apply post_refl. Qed.
Lemma pres_bind : forall {A B} (m : M A) (f : A -> M B), pres m -> (forall a, pres (f a)) -> pres (bind m f).
Proof.
  intros A B m f Hm Hf s I. unfold bind. specialize (Hm s I). destruct (m s) as [s1 a|s1| |]; auto.
  assert (I1 := proj1 Hm). specialize (Hf a s1 I1).
  destruct (f a s1); auto; eapply post_trans; eassumption.
Qed.
Lemma pres_make : forall x, not_func x -> pres (make x).
Proof. intros x N s I. unfold make. apply H_make; [exact I|]. constructor; auto. Qed.
Lemma pres_put : forall f, (forall s, core (f s) = core s) -> (calls = true \/ forall s, an (f s) = an s) -> pres (put f).
Proof. intros f H [C|A] s I; unfold put; apply H_core; auto. Qed.

Ltac pres_step :=
  first
  [ apply pres_ret | apply pres_fail | apply pres_crash | apply pres_get | apply pres_look
  | apply pres_make; exact Logic.I
  | apply pres_put; [reflexivity|now right]
  | apply pres_bind; [|intros ?]
  | match goal with
    | |- pres (if ?b then _ else _) => destruct b eqn:?
    | |- pres (match ?x with _ => _ end) => destruct x eqn:?
    end ].
Ltac pres_auto := repeat pres_step.

Section Node.
Variable fuel : nat.
Variable E : expr -> M nat.
Variable Bk : list stmt -> M nat.
Hypothesis HE : forall e, okE e -> pres (E e).
Hypothesis HB : forall b, Forall okS b -> pres (Bk b).
Hypothesis HBk : forall b, Bk b = interp fuel (NBlock b).

Lemma bool_of_pres : forall o, pres (bool_of o).
Proof. intros. unfold bool_of. pres_auto. Qed.
Lemma num_of_pres : forall o, pres (num_of o).
Proof. intros. unfold num_of. pres_auto. Qed.
Lemma str_of_pres : forall o, pres (str_of o).
Proof. intros. unfold str_of. pres_auto. Qed.
Lemma check_arg_pres : forall im t o, pres (check_arg fuel im t o).
Proof.
  intros im t o s I. unfold check_arg.
  destruct (if im then _ else _) as [[]|]; [apply H_core; auto| |exact Logic.I].
  destruct (has_type _ _); apply H_core; auto.
Qed.
Lemma eval_list_pres : forall es, Forall okE es -> pres (eval_list E es).
Proof. induction 1; cbn [eval_list]; pres_auto; auto. Qed.
Lemma eval_dict_pres : forall kvs, Forall (fun p => okE (fst p) /\ okE (snd p)) kvs -> forall d, pres (eval_dict E kvs d).
Proof.
  induction 1 as [|[k v] kvs [Hk Hv] _ IH]; intros d; cbn [eval_dict]; pres_auto; auto.
Qed.
Lemma arithmetic_pres : forall op p a b, (p = true -> plus = true) -> okE a -> okE b -> pres (arithmetic E op p a b).
Proof.
  intros op p a b Hp Ha Hb. unfold arithmetic.
  apply pres_bind; [auto|intros l]. apply pres_bind; [auto|intros r].
  destruct (_ || _); [apply pres_ret|].
  intros s I. unfold look, bind at 1 2. cbn beta iota.
  destruct (obj_at s l) as [| |b0|n|t|xs|d|ps rr body st] eqn:Eo; try (now apply post_refl).
  - destruct (obj_at s r); try (now apply post_refl).
    destruct (num_arith op n _); [|now apply post_refl]. destruct (in_i64 _); [|exact Logic.I].
    now apply pres_make.
  - destruct (obj_at s r); try (now apply post_refl). destruct op; try (now apply post_refl); [now apply pres_make|].
    destruct (_ || _); [now apply post_refl|]. destruct (M_Path.path_join _ _); [|exact Logic.I]. now apply pres_make.
  - destruct op; try (now apply post_refl). destruct p.
    + unfold bind, store, put, ret. apply H_store with (l := xs); auto.
    + unfold bind, store, put, ret, make. cbn [heap with_heap].
      set (l' := xs ++ _).
      assert (X : with_heap (upd (length (heap s)) (OArr l') (heap s ++ [OArr xs])) (with_heap (heap s ++ [OArr xs]) s)
                  = with_heap (heap s ++ [OArr l']) s).
      { unfold with_heap. cbn. f_equal. apply upd_snoc. }
      rewrite X. apply H_make; auto. constructor; cbn; auto.
  - destruct (obj_at s r); try (now apply post_refl). destruct op; try (now apply post_refl).
    destruct p.
    + unfold bind, store, put, ret. apply H_store_dict with (l := d); auto.
    + apply H_make; auto. constructor; cbn; auto.
Qed.
Lemma comparison_pres : forall op a b, okE a -> okE b -> pres (comparison fuel E op a b).
Proof.
  intros op a b Ha Hb. unfold comparison.
  apply pres_bind; [auto|intros l]. apply pres_bind; [auto|intros r].
  destruct (_ || _); [apply pres_ret|]. apply pres_bind; [|intros c; now apply pres_make].
  destruct op; pres_auto; try (intros s I; destruct (equal fuel s l r) as [[]|]; [now apply post_refl..|exact Logic.I]).
  all: clear Heqo; intros s I; induction l0 as [|x l0 IHl]; [now apply post_refl|];
       destruct (equal fuel s l x) as [[]|]; [now apply post_refl|exact IHl|exact Logic.I].
Qed.
Lemma index_pres : forall a i, okE a -> okE i -> pres (index E a i).
Proof. intros a i Ha Hi. unfold index. pres_auto; auto. Qed.
Lemma local_args_pres : forall im ts os args, Forall okE args -> pres (local_args fuel E im ts os args).
Proof.
  induction ts as [|t ts IH]; intros os args Ha; cbn [local_args].
  - revert os. induction Ha as [|e args He Ha IHa]; intros os; destruct os as [|t os]; pres_auto; auto.
    apply check_arg_pres.
  - destruct Ha as [|e args He Ha]; pres_auto; auto. apply check_arg_pres.
Qed.
Lemma static_args_pres : forall args i, calls = true -> Forall okE args -> pres (static_args fuel E args i).
Proof.
  intros args i C Ha. revert i. induction Ha as [|e args He Ha IH]; intros i; cbn [static_args]; pres_auto; auto.
  - apply pres_put; auto.
  - apply check_arg_pres.
Qed.
Lemma func_obj_eval_pres : forall o args, calls = true -> Forall okE args -> pres (func_obj_eval fuel E Bk o args).
Proof.
  intros o args C Ha s I. unfold func_obj_eval. unfold bind at 1, look. cbn beta iota.
  destruct (obj_at s o) as [| | | | | | |ps r body st] eqn:Eo; try (now apply post_refl).
  destruct (64 <=? _); [exact Logic.I|].
  unfold bind at 1, put. set (s1 := with_an _ s).
  assert (P1 : post s s1) by (apply H_core; auto).
  unfold bind at 1. assert (P2 := static_args_pres args 0 C Ha s1 (proj1 P1)).
  destruct (static_args fuel E args 0 s1) as [s2 []|s2| |]; auto; [|eapply post_trans; eassumption].
  unfold bind, get.
  assert (Eo2 : obj_at s2 o = OFunc ps r body st).
  { apply (H_stable s1 s2); [exact (proj1 P1)|exact (proj2 P2)|]. exact Eo. }
  assert (X : func_obj_call Bk ps r body st (map snd (firstn (length ps) (an s2))) s2 =
              func_obj_call (fun b => interp fuel (NBlock b)) ps r body st (map snd (firstn (length ps) (an s2))) s2).
  { unfold func_obj_call, bind. destruct (get s2); auto. destruct (put _ _); auto.
    destruct (push_local_scope _); auto. destruct (assign_params _ _ _); auto. destruct (put _ _); auto.
    rewrite HBk. reflexivity. }
  rewrite X. clear X.
  assert (P3 := H_call fuel (fun b Hb => eq_rect _ pres (HB b Hb) _ (HBk b)) C o ps r body st
     (map snd (firstn (length ps) (an s2))) s2 (proj1 P2) Eo2).
  destruct (func_obj_call _ _ _ _ _ _ s2); auto; (eapply post_trans; [exact P1|]; eapply post_trans; eassumption).
Qed.
Lemma absorb_pres : forall m, pres m -> pres (absorb m).
Proof.
  intros m H s I. unfold absorb. specialize (H s I). destruct (m s) as [s1 a|s1| |]; auto.
  destruct (among s1); [|exact H]. eapply post_trans; [exact H|]. apply H_core; auto. exact (proj1 H).
Qed.
Lemma nums_of_pres : forall l, pres (nums_of l).
Proof. induction l; cbn [nums_of]; pres_auto; auto. Qed.
Lemma range_args_pres : forall args, Forall okE args -> pres (range_args fuel E args).
Proof. intros args Ha. unfold range_args. apply pres_bind; [now apply local_args_pres|intros l].
  apply pres_bind; [apply nums_of_pres|intros ns; apply pres_ret]. Qed.
Lemma builtin_pres : forall (g : list obj -> list nat -> option (list obj * nat)) r l,
  (forall h l new o, g h l = Some (new, o) -> Forall not_func new) ->
  pres (fun s => match g (heap s) (r ++ l) with
                 | Some (new, o) => Ok (with_heap (heap s ++ new) s) o
                 | None => Err s
                 end).
Proof.
  intros g r l H s I. destruct (g (heap s) (r ++ l)) as [[new o]|] eqn:G; [|now apply post_refl].
  apply H_make; [exact I|]. eapply H; eassumption.
Qed.
Lemma kernel_pres : forall f args, Forall okE args ->
  (f = B "set_variable" -> assigns = true) -> (f = B "unset_variable" -> unsets = true) ->
  match kernel other fuel E f args with Some m => pres m | None => user_call other f end.
Proof.
  intros f args Ha Hs Hu. unfold kernel.
  assert (L := fun im ts os => local_args_pres im ts os args Ha).
  destruct (beqb f (B "disabler")) eqn:E1; [pres_auto; auto|].
  destruct (beqb f (B "is_disabler")) eqn:E2; [pres_auto; auto|].
  destruct (beqb f (B "set_variable")) eqn:E3.
  { apply beqb_eq in E3. apply pres_bind; [auto|intros l]. apply pres_bind; [apply str_of_pres|intros x].
    apply pres_bind; [apply H_assign; auto|intros ?]. apply pres_ret. }
  destruct (beqb f (B "unset_variable")) eqn:E4.
  { apply beqb_eq in E4. apply pres_bind; [auto|intros l]. apply pres_bind; [apply str_of_pres|intros x].
    apply pres_bind; [apply pres_get|intros s0]. destruct (get_variable s0 x); [|apply pres_fail].
    apply pres_bind; [apply H_unassign; auto|intros ?]. apply pres_ret. }
  destruct (beqb f (B "get_variable")) eqn:E5.
  { apply pres_bind; [auto|intros l]. destruct (_ =? _); [apply pres_ret|].
    apply pres_bind; [apply str_of_pres|intros x]. pres_auto. }
  destruct (beqb f (B "is_variable")) eqn:E6.
  { apply pres_bind; [auto|intros l]. apply pres_bind; [apply str_of_pres|intros x]. pres_auto. }
  destruct (beqb f (B "range")) eqn:E7.
  { apply pres_bind; [now apply range_args_pres|intros [[[a b] c]|]; [|apply pres_fail]].
    intros s I. destruct (range_list fuel a b c) as [zs|]; [|exact Logic.I].
    apply H_make; [exact I|]. apply Forall_app. split; [|constructor; cbn; auto].
    apply Forall_forall. intros x J. apply in_map_iff in J. destruct J as (z & <- & _). exact Logic.I. }
  destruct (other f) as [[ts g]|] eqn:E8.
  { apply pres_bind; [auto|intros l]. apply (builtin_pres g [] l). intros h l0 new o G.
    apply (Hother f _ E8 h l0 new o G). }
  split; [|exact E8]. intros I. unfold kernel_names in I.
  repeat (destruct I as [I|I]; [rewrite <- I, beqb_refl in *; discriminate|]). destruct I.
Qed.
Lemma call_pres : forall f args, okE (ECall f args) -> pres (call other fuel E Bk f args).
Proof.
  intros f args Ok. inversion Ok as [| | | | | | | | | | | | | |? ? Hs Hu Hc Ha|]; subst.
  unfold call. assert (K := kernel_pres f args Ha Hs Hu).
  destruct (kernel other fuel E f args) as [m|]; [now apply absorb_pres|].
  apply pres_bind; [apply HE; constructor|intros o]. apply pres_bind; [apply pres_look|intros x].
  destruct x; try apply pres_fail; try apply pres_crash. apply absorb_pres. apply func_obj_eval_pres; auto.
Qed.
Lemma method_call_pres : forall e m args, okE e -> Forall okE args -> pres (method_call method fuel E e m args).
Proof.
  intros e m args He Ha. unfold method_call.
  apply pres_bind; [auto|intros r]. destruct (r =? 0); [apply pres_fail|].
  apply pres_bind; [apply pres_look|intros x].
  assert (G : pres (match method x m with
      | None => fail
      | Some (ts, g) =>
          absorb (bind (local_args fuel E false ts [] args) (fun l =>
                  fun s => match g (heap s) (r :: l) with
                           | Some (new, o) => Ok (with_heap (heap s ++ new) s) o
                           | None => Err s
                           end))
      end)).
  { destruct (method x m) as [[ts g]|] eqn:Em; [|apply pres_fail]. apply absorb_pres.
    apply pres_bind; [now apply local_args_pres|intros l]. apply (builtin_pres g [r] l).
    intros h l0 new o G. apply (Hmethod _ _ _ Em h l0 new o G). }
  destruct x; try exact G; [|apply pres_crash].
  destruct (beqb m _); [|apply pres_ret]. apply absorb_pres.
  apply pres_bind; [now apply local_args_pres|intros l; now apply pres_make].
Qed.
Lemma node_expr_pres : forall e, okE e -> pres (node_expr other method fuel E Bk e).
Proof.
  intros e Ok. destruct e; cbn [node_expr].
  - now apply pres_make.
  - now apply pres_make.
  - now apply pres_make.
  - intros s I. destruct (get_variable s x); now apply post_refl.
  - inversion Ok; subst. apply pres_bind; [now apply eval_list_pres|intros l; now apply pres_make].
  - inversion Ok; subst. apply pres_bind; [now apply eval_dict_pres|intros l; now apply pres_make].
  - inversion Ok; subst. pres_auto; auto.
  - inversion Ok; subst. pres_auto; auto.
  - inversion Ok; subst. pres_auto; auto.
  - inversion Ok; subst. now apply comparison_pres.
  - inversion Ok; subst. pres_auto; auto.
  - inversion Ok; subst. pres_auto; auto.
  - inversion Ok; subst. apply arithmetic_pres; auto. discriminate.
  - inversion Ok; subst. now apply index_pres.
  - now apply call_pres.
  - inversion Ok; subst. now apply method_call_pres.
Qed.
Lemma foreach_common_pres : forall body, Forall okS body -> pres (foreach_common Bk body).
Proof. intros body H. unfold foreach_common. pres_auto; auto. Qed.
Lemma foreach_array_pres : forall x body, assigns = true -> Forall okS body -> forall f arr i, pres (foreach_array Bk f x body arr i).
Proof.
  intros x body A H. induction f as [|f IH]; intros arr i; cbn [foreach_array]; [intros s I; exact Logic.I|].
  apply pres_bind; [apply pres_look|intros o]. destruct o; try apply pres_crash.
  destruct (nth_error l i); [|apply pres_ret]. apply pres_bind; [now apply H_assign|intros _].
  apply pres_bind; [now apply foreach_common_pres|intros []]; [apply IH|apply pres_ret].
Qed.
Lemma foreach_dict_pres : forall k v body, assigns = true -> Forall okS body -> forall d ks todo, pres (foreach_dict Bk k v body d ks todo).
Proof.
  intros k v body A H d ks. induction todo as [|key todo IH]; cbn [foreach_dict]; [apply pres_ret|].
  apply pres_bind; [apply pres_look|intros o]. destruct o; try apply pres_crash.
  destruct (negb _); [apply pres_crash|]. destruct (dict_lookup l key); [|apply pres_crash].
  apply pres_bind; [now apply pres_make|intros ko].
  apply pres_bind; [now apply H_assign|intros _]. apply pres_bind; [now apply H_assign|intros _].
  apply pres_bind; [now apply foreach_common_pres|intros []]; [apply IH|apply pres_ret].
Qed.
Lemma foreach_range_pres : forall x body, assigns = true -> Forall okS body -> forall f i stop step, pres (foreach_range Bk f x body i stop step).
Proof.
  intros x body A H. induction f as [|f IH]; intros i stop step; cbn [foreach_range]; [intros s I; exact Logic.I|].
  destruct (_ <? _)%Z; [|apply pres_ret]. apply pres_bind; [now apply pres_make|intros o].
  apply pres_bind; [now apply H_assign|intros _].
  apply pres_bind; [now apply foreach_common_pres|intros []]; [apply IH|apply pres_ret].
Qed.
Lemma node_stmt_pres : forall st, okS st -> pres (node_stmt fuel E Bk st).
Proof.
  intros st Ok. destruct st as [e|x e|x e|c t f|x e body|k v e body| | |e|f p r body]; cbn [node_stmt];
    inversion_clear Ok.
  - auto.
  - apply pres_bind; [auto|intros o]. apply pres_bind; [apply pres_look|intros v].
    apply pres_bind; [destruct v; try apply pres_ret; now apply pres_make|intros o'].
    destruct (o' =? 0); [apply pres_fail|]. apply pres_bind; [now apply H_assign|intros _; apply pres_ret].
  - apply pres_bind; [apply arithmetic_pres; auto; constructor|intros o].
    apply pres_bind; [now apply H_reassign|intros _; apply pres_ret].
  - pres_auto; auto.
  - assert (G : pres (bind (E e) (fun it => bind (look it) (fun o => match o with
        | OArr _ => put (with_ctl loop_norm) ;; foreach_array Bk fuel x body it 0 ;; ret 0
        | _ => fail end)))).
    { apply pres_bind; [auto|intros it]. apply pres_bind; [apply pres_look|intros o].
      destruct o; try apply pres_fail. apply pres_bind; [apply pres_put; [reflexivity|now right]|intros _].
      apply pres_bind; [now apply foreach_array_pres|intros _; apply pres_ret]. }
    destruct e; try exact G. destruct (beqb f _); [|exact G].
    match goal with H : okE (ECall f args) |- _ => inversion_clear H end.
    apply pres_bind; [now apply range_args_pres|intros [[[a b] c]|]; [|apply pres_fail]].
    apply pres_bind; [apply pres_put; [reflexivity|now right]|intros _].
    apply pres_bind; [now apply foreach_range_pres|intros _; apply pres_ret].
  - apply pres_bind; [auto|intros it]. apply pres_bind; [apply pres_look|intros o].
    destruct o; try apply pres_fail. apply pres_bind; [apply pres_put; [reflexivity|now right]|intros _].
    apply pres_bind; [now apply foreach_dict_pres|intros _; apply pres_ret].
  - pres_auto.
  - pres_auto.
  - apply pres_bind; [auto|intros o]. pres_auto.
  - now apply H_func.
Qed.
Lemma node_block_pres : forall (S1 : stmt -> M nat) b, Forall okS b -> (forall st, okS st -> pres (S1 st)) ->
  forall o, pres (node_block S1 b o).
Proof.
  intros S1 b Hb HS. induction Hb as [|st b Hst Hb IH]; intros o; cbn [node_block]; [apply pres_ret|].
  apply pres_bind; auto.
Qed.
End Node.

Definition ok_node (n : node) : Prop :=
  match n with NExpr e => okE e | NStmt st => okS st | NBlock b => Forall okS b end.

Theorem interp_pres : forall fuel n, ok_node n -> pres (interp fuel n).
Proof.
  induction fuel as [|fuel IH]; intros n Ok; [intros s I; exact Logic.I|].
  cbn [M_Interp.interp].
  assert (G : forall m, pres m -> pres (guarded m)).
  { intros m H s I. unfold guarded. destruct (ctl s); try (now apply post_refl).
    destruct (returning s); [now apply post_refl|now apply H]. }
  apply G. destruct n; cbn in Ok.
  - apply node_expr_pres; auto; intros; now apply IH.
  - apply node_stmt_pres; auto; intros; now apply IH.
  - apply node_block_pres; auto; intros; now apply IH.
Qed.
End Effects.
