(** Expressions that call no function of a build file neither read nor change the array of
    arguments that calls of such functions share. *)
From Verif Require Import Base M_Interp S_Interp L_Interp L_Mono L_Eval L_Effects.

Definition res_map {A} (g : state -> state) (r : res A) : res A :=
  match r with Ok s a => Ok (g s) a | Err s => Err (g s) | Crash => Crash | OutOfFuel => OutOfFuel end.

Section An.
Variable other : bytes -> option builtin.
Variable method : obj -> bytes -> option builtin.
Notation interp := (interp other method).
Variable a : list (bool * nat).
Definition com {A} (m : M A) : Prop := forall s, m (with_an a s) = res_map (with_an a) (m s).

Lemma com_bind : forall {A B} (m : M A) (f : A -> M B), com m -> (forall x, com (f x)) -> com (bind m f).
Proof. intros A B m f Hm Hf s. unfold bind. rewrite Hm. destruct (m s) as [s1 x| | |]; cbn; try reflexivity. apply Hf. Qed.
Lemma com_ret : forall {A} (x : A), com (ret x). Proof. intros A x s. reflexivity. Qed.
Lemma com_fail : forall {A}, com (@fail A). Proof. intros A s. reflexivity. Qed.
Lemma com_crash : forall {A}, com (@crash A). Proof. intros A s. reflexivity. Qed.
Lemma com_look : forall o, com (look o). Proof. intros o s. reflexivity. Qed.
Lemma com_make : forall x, com (make x). Proof. intros x s. reflexivity. Qed.
Lemma com_store : forall o x, com (store o x). Proof. intros o x s. reflexivity. Qed.

Ltac com_step :=
  first
  [ apply com_ret | apply com_fail | apply com_crash | apply com_look | apply com_make | apply com_store
  | apply com_bind; [|intros ?]
  | match goal with
    | |- com (if ?b then _ else _) => destruct b eqn:?
    | |- com (match ?x with _ => _ end) => destruct x eqn:?
    end ].
Ltac com_auto := repeat com_step.

Section Node.
Variable fuel : nat.
Variable E : expr -> M nat.
Variable Bk : list stmt -> M nat.
Hypothesis HE : forall e, quiet other e -> com (E e).

Lemma find_an : forall s x st f, find_scope (with_an a s) x st f = find_scope s x st f.
Proof. induction st as [|i st IH]; intros f; cbn; auto. Qed.
Lemma get_an : forall s x, get_variable (with_an a s) x = get_variable s x.
Proof. intros s x. unfold get_variable, get_local_variable. now rewrite find_an. Qed.
Lemma eq_an : forall f s l r, equal f (with_an a s) l r = equal f s l r.
Proof.
  induction f as [|f IH]; intros s l r; cbn [equal]; [reflexivity|].
  destruct (l =? r); [reflexivity|]. unfold obj_at. cbn [heap with_an].
  destruct (nth l (heap s) ONull) as [| | | | |xs|d|]; destruct (nth r (heap s) ONull) as [| | | | |ys|d'|]; auto.
  - destruct (_ =? _); [|reflexivity]. revert ys. induction xs as [|x xs IHx]; intros [|y ys]; auto.
    rewrite IH. destruct (equal f s x y) as [[]|]; auto.
  - destruct (_ =? _); [|reflexivity]. induction d as [|[k x] d IHd]; auto.
    destruct (dict_lookup d' k); auto. rewrite IH. destruct (equal f s x n) as [[]|]; auto.
Qed.
Lemma flat_an : forall f s o, flat_disabler f (with_an a s) o = flat_disabler f s o.
Proof.
  induction f as [|f IH]; intros s o; cbn [flat_disabler]; [reflexivity|].
  unfold obj_at. cbn [heap with_an]. destruct (nth o (heap s) ONull) as [| | | | |xs|d|]; auto.
  induction xs as [|x xs IHx]; auto. rewrite IH, IHx. reflexivity.
Qed.
Lemma check_an : forall im t o, com (check_arg fuel im t o).
Proof.
  intros im t o s. unfold check_arg. rewrite flat_an. destruct (if im then _ else _) as [[]|]; auto.
  change (obj_at (with_an a s) o) with (obj_at s o). destruct (has_type _ _); auto.
Qed.
Lemma args_an : forall im ts os args, Forall (quiet other) args -> com (local_args fuel E im ts os args).
Proof.
  induction ts as [|t ts IH]; intros os args Ha; cbn [local_args].
  - revert os. induction Ha as [|e args He Ha IHa]; intros os; destruct os as [|t os]; com_auto; auto.
    apply check_an.
  - destruct Ha as [|e args He Ha]; com_auto; auto. apply check_an.
Qed.
Lemma list_an : forall es, Forall (quiet other) es -> com (eval_list E es).
Proof. induction 1; cbn [eval_list]; com_auto; auto. Qed.
Lemma str_an : forall o, com (str_of o). Proof. intros o. unfold str_of. com_auto. Qed.
Lemma num_an : forall o, com (num_of o). Proof. intros o. unfold num_of. com_auto. Qed.
Lemma bool_an : forall o, com (bool_of o). Proof. intros o. unfold bool_of. com_auto. Qed.
Lemma dict_an : forall kvs, Forall (fun p => quiet other (fst p) /\ quiet other (snd p)) kvs -> forall d, com (eval_dict E kvs d).
Proof.
  induction 1 as [|[k v] kvs [Hk Hv] _ IH]; intros d; cbn [eval_dict]; com_auto; auto.
Qed.
Lemma arith_an : forall op p x y, quiet other x -> quiet other y -> com (arithmetic E op p x y).
Proof. intros op p x y Hx Hy. unfold arithmetic. com_auto; auto. Qed.
Lemma cmp_an : forall op x y, quiet other x -> quiet other y -> com (comparison fuel E op x y).
Proof.
  intros op x y Hx Hy. unfold comparison. apply com_bind; [auto|intros l]. apply com_bind; [auto|intros r].
  destruct (_ || _); [apply com_ret|]. apply com_bind; [|intros c; apply com_make].
  destruct op; com_auto; try (intros s; cbv beta zeta; rewrite eq_an; destruct (equal fuel s l r); reflexivity).
  all: clear Heqo; intros s; induction l0 as [|z l0 IHl]; [reflexivity|]; rewrite eq_an; destruct (equal fuel s l z) as [[]|]; auto.
Qed.
Lemma absorb_an : forall m, com m -> com (absorb m).
Proof.
  intros m H s. unfold absorb. rewrite H. destruct (m s) as [s1 x|s1| |]; cbn; auto. destruct (among s1); auto.
Qed.
Lemma nums_an : forall l, com (nums_of l).
Proof. induction l; cbn [nums_of]; com_auto; auto. Qed.
Lemma range_an : forall args, Forall (quiet other) args -> com (range_args fuel E args).
Proof. intros args Ha. unfold range_args. apply com_bind; [now apply args_an|intros l].
  apply com_bind; [apply nums_an|intros ns; apply com_ret]. Qed.
Lemma kernel_an : forall f args, Forall (quiet other) args -> f <> B "set_variable" -> f <> B "unset_variable" ->
  match kernel other fuel E f args with Some m => com m | None => user_call other f end.
Proof.
  intros f args Ha Hs Hu. unfold kernel. assert (L := fun im ts os => args_an im ts os args Ha).
  destruct (beqb f (B "disabler")) eqn:E1; [com_auto; auto|].
  destruct (beqb f (B "is_disabler")) eqn:E2; [com_auto; auto|].
  destruct (beqb f (B "set_variable")) eqn:E3; [apply beqb_eq in E3; contradiction|].
  destruct (beqb f (B "unset_variable")) eqn:E4; [apply beqb_eq in E4; contradiction|].
  destruct (beqb f (B "get_variable")) eqn:E5.
  { apply com_bind; [auto|intros l]. destruct (_ =? _); [apply com_ret|].
    apply com_bind; [apply str_an|intros x]. intros s. unfold bind, get.
    rewrite get_an.
    destruct (get_variable s x); [reflexivity|]. destruct l as [|? [|? [|? ?]]]; reflexivity. }
  destruct (beqb f (B "is_variable")) eqn:E6.
  { apply com_bind; [auto|intros l]. apply com_bind; [apply str_an|intros x]. intros s. unfold bind, get. now rewrite get_an. }
  destruct (beqb f (B "range")) eqn:E7.
  { apply com_bind; [now apply range_an|intros [[[x b] c]|]; [|apply com_fail]].
    intros s. destruct (range_list fuel x b c) as [zs|]; reflexivity. }
  destruct (other f) as [[ts g]|] eqn:E8.
  { apply com_bind; [auto|intros l]. intros s. cbn [heap with_an]. destruct (g (heap s) l) as [[new o]|]; reflexivity. }
  split; [|exact E8]. intros I. unfold kernel_names in I.
  repeat (destruct I as [I|I]; [rewrite <- I, beqb_refl in *; discriminate|]). destruct I.
Qed.
Lemma expr_an : forall e, quiet other e -> com (node_expr other method fuel E Bk e).
Proof.
  intros e Q. destruct e; cbn [node_expr]; inversion Q; subst; try apply com_make.
  - intros s. rewrite get_an. now destruct (get_variable s x).
  - apply com_bind; [now apply list_an|intros l; apply com_make].
  - apply com_bind; [now apply dict_an|intros l; apply com_make].
  - apply com_bind; [auto|intros o]. destruct (_ =? _); [apply com_ret|]. apply com_bind; [apply bool_an|intros c; apply com_make].
  - apply com_bind; [auto|intros o]. destruct (_ =? _); [apply com_ret|]. apply com_bind; [apply bool_an|intros c].
    destruct (negb c); [apply com_make|]. apply com_bind; [auto|intros o']. destruct (_ =? _); [apply com_ret|].
    apply com_bind; [apply bool_an|intros c'; apply com_make].
  - apply com_bind; [auto|intros o]. destruct (_ =? _); [apply com_ret|]. apply com_bind; [apply bool_an|intros c].
    destruct c; [apply com_make|]. apply com_bind; [auto|intros o']. destruct (_ =? _); [apply com_ret|].
    apply com_bind; [apply bool_an|intros c'; apply com_make].
  - now apply cmp_an.
  - apply com_bind; [auto|intros o]. destruct (_ =? _); [apply com_ret|]. apply com_bind; [apply bool_an|intros c].
    destruct c; auto.
  - apply com_bind; [auto|intros o]. destruct (_ =? _); [apply com_ret|]. apply com_bind; [apply num_an|intros c].
    destruct (in_i64 _); [apply com_make|apply com_crash].
  - now apply arith_an.
  - unfold index. apply com_bind; [auto|intros l]. apply com_bind; [auto|intros r]. apply com_bind; [apply com_look|intros lo].
    destruct lo; com_auto; try apply num_an; try apply str_an.
  - unfold call. assert (K := kernel_an f args ltac:(assumption)
      ltac:(intros X; specialize (H1 X); discriminate) ltac:(intros X; specialize (H2 X); discriminate)).
    destruct (kernel other fuel E f args) as [m|]; [now apply absorb_an|]. specialize (H3 K). discriminate.
  - unfold method_call. apply com_bind; [auto|intros r]. destruct (r =? 0); [apply com_fail|].
    apply com_bind; [apply com_look|intros x].
    assert (G : com (match method x m with
      | None => fail
      | Some (ts, g) =>
          absorb (bind (local_args fuel E false ts [] args) (fun l =>
                  fun s => match g (heap s) (r :: l) with
                           | Some (new, o) => Ok (with_heap (heap s ++ new) s) o
                           | None => Err s
                           end))
      end)).
    { destruct (method x m) as [[ts g]|]; [|apply com_fail]. apply absorb_an. apply com_bind; [now apply args_an|intros l].
      intros s. cbn [heap with_an]. destruct (g (heap s) (r :: l)) as [[new o]|]; reflexivity. }
    destruct x; try exact G; [|apply com_crash].
    destruct (beqb m _); [|apply com_ret]. apply absorb_an.
    apply com_bind; [now apply args_an|intros l; apply com_make].
Qed.
End Node.

Lemma quiet_an : forall fuel e, quiet other e -> com (interp fuel (NExpr e)).
Proof.
  induction fuel as [|fuel IH]; intros e Q; [intros s; reflexivity|].
  cbn [M_Interp.interp]. intros s. unfold guarded. cbn [ctl returning with_an].
  destruct (ctl s); try reflexivity. destruct (returning s); [reflexivity|]. now apply expr_an.
Qed.
End An.
