(** Evaluation step by step. *)
From Verif Require Import Base M_Interp S_Interp L_Interp L_Mono.

Section Eval.
Variable other : bytes -> option builtin.
Variable method : obj -> bytes -> option builtin.
Notation interp := (interp other method).
Notation evaluates := (evaluates other method).
Notation E f := (fun e => interp f (NExpr e)).
Notation Bk f := (fun b => interp f (NBlock b)).
Notation node_expr f := (node_expr other method f (E f) (Bk f)).
Notation node_stmt f := (node_stmt f (E f) (Bk f)).

Lemma guarded_idle : forall m s, idle s -> guarded m s = m s.
Proof. intros m s [C R]. unfold guarded. now rewrite C, R. Qed.
Lemma interp_expr : forall f e s, idle s -> interp (S f) (NExpr e) s = node_expr f e s.
Proof. intros f e s I. cbn [M_Interp.interp]. now rewrite guarded_idle. Qed.
Lemma interp_stmt : forall f e s, idle s -> interp (S f) (NStmt e) s = node_stmt f e s.
Proof. intros f e s I. cbn [M_Interp.interp]. now rewrite guarded_idle. Qed.

(** for all sufficiently large fuel *)
Definition late (P : nat -> Prop) : Prop := exists f0, forall f, f0 <= f -> P f.
Lemma late_and : forall P Q : nat -> Prop, late P -> late Q -> late (fun f => P f /\ Q f).
Proof. intros P Q [a Ha] [b Hb]. exists (a + b). intros f L. split; [apply Ha|apply Hb]; lia. Qed.
Lemma late_impl : forall P Q : nat -> Prop, (forall f, P f -> Q f) -> late P -> late Q.
Proof. intros P Q H [a Ha]. exists a. auto. Qed.
Lemma late_evaluates : forall n s s' o, evaluates n s s' o <-> late (fun f => interp f n s = Ok s' o).
Proof.
  intros n s s' o. split; [apply evaluates_fuel|]. intros [f0 H]. exists f0. now apply H.
Qed.
Lemma late_succ : forall P : nat -> Prop, late (fun f => P (S f)) -> late P.
Proof. intros P [a H]. exists (S a). intros [|f] L; [lia|]. apply H. lia. Qed.
Lemma ev_expr : forall e s s' o, idle s -> late (fun f => node_expr f e s = Ok s' o) -> evaluates (NExpr e) s s' o.
Proof.
  intros e s s' o I H. apply late_evaluates, late_succ. eapply late_impl; [|exact H]. intros f Hf. now rewrite interp_expr.
Qed.
Lemma ev_stmt : forall e s s' o, idle s -> late (fun f => node_stmt f e s = Ok s' o) -> evaluates (NStmt e) s s' o.
Proof.
  intros e s s' o I H. apply late_evaluates, late_succ. eapply late_impl; [|exact H]. intros f Hf. now rewrite interp_stmt.
Qed.
Lemma ev_expr_inv : forall e s s' o, idle s -> evaluates (NExpr e) s s' o -> late (fun f => node_expr f e s = Ok s' o).
Proof.
  intros e s s' o I H. apply late_evaluates in H. destruct H as [a H]. exists a. intros f L.
  rewrite <- interp_expr by exact I. apply H. lia.
Qed.
Lemma ev_stmt_inv : forall e s s' o, idle s -> evaluates (NStmt e) s s' o -> late (fun f => node_stmt f e s = Ok s' o).
Proof.
  intros e s s' o I H. apply late_evaluates in H. destruct H as [a H]. exists a. intros f L.
  rewrite <- interp_stmt by exact I. apply H. lia.
Qed.
Lemma bind_ok : forall {A B} (m : M A) (k : A -> M B) s s' b,
  bind m k s = Ok s' b -> exists s1 a, m s = Ok s1 a /\ k a s1 = Ok s' b.
Proof. intros A B m k s s' b H. unfold bind in H. destruct (m s) as [s1 a|s1| |]; try discriminate. eauto. Qed.
Lemma evaluates_at : forall f n s s' o, interp f n s = Ok s' o -> evaluates n s s' o.
Proof. intros f n s s' o H. now exists f. Qed.

(** a program is its statements in turn *)
Lemma block_nil : forall s, evaluates (NBlock []) s s 0.
Proof.
  intros s. exists 1. cbn. unfold guarded, ret. destruct (ctl s); try reflexivity. now destruct (returning s).
Qed.
Inductive steps : list stmt -> nat -> state -> state -> nat -> Prop :=
| steps_nil s o : steps [] o s s o
| steps_cons st b o0 s s1 s2 o1 o2 : evaluates (NStmt st) s s1 o1 -> steps b o1 s1 s2 o2 -> steps (st :: b) o0 s s2 o2.
Lemma node_block_steps : forall f b o0 s s' o,
  node_block (fun st => interp f (NStmt st)) b o0 s = Ok s' o -> steps b o0 s s' o.
Proof.
  induction b as [|st b IH]; intros o0 s s' o H; cbn in H.
  - inversion H; subst. constructor.
  - apply bind_ok in H. destruct H as (s1 & o1 & H1 & H2). econstructor; [exists f; exact H1|]. now apply IH.
Qed.
Lemma steps_late : forall b o0 s s' o, steps b o0 s s' o ->
  late (fun f => node_block (fun st => interp f (NStmt st)) b o0 s = Ok s' o).
Proof.
  induction 1 as [s o|st b o0 s s1 s2 o1 o2 H1 H2 IH]; [exists 0; intros; reflexivity|].
  apply late_evaluates in H1. eapply late_impl; [|exact (late_and _ _ H1 IH)].
  intros f [A C]. cbn [node_block]. unfold bind. now rewrite A.
Qed.
Lemma block_steps : forall b s s' o, idle s -> (evaluates (NBlock b) s s' o <-> steps b 0 s s' o).
Proof.
  intros b s s' o I. split.
  - intros [[|f] H]; [discriminate|]. cbn [M_Interp.interp] in H. rewrite guarded_idle in H by exact I.
    eapply node_block_steps; exact H.
  - intros H. apply late_evaluates, late_succ. apply steps_late in H. eapply late_impl; [|exact H]. intros f Hf.
    cbn [M_Interp.interp]. now rewrite guarded_idle.
Qed.
(** nothing happens while a break, continue or return is pending *)
Lemma busy : forall n s, ~ idle s -> evaluates n s s 0.
Proof.
  intros n s N. exists 1. cbn [M_Interp.interp]. unfold guarded, idle in *.
  destruct (ctl s); [destruct (returning s); [reflexivity|exfalso; apply N; auto]|reflexivity|reflexivity].
Qed.
Lemma busy_inv : forall n s s' o, ~ idle s -> evaluates n s s' o -> s' = s /\ o = 0.
Proof. intros n s s' o N H. apply (busy n) in N. eapply evaluates_det in N; [|exact H]. exact N. Qed.
Lemma idle_dec : forall s, idle s \/ ~ idle s.
Proof.
  intros s. unfold idle. destruct (ctl s), (returning s); [right|left|right|right|right|right]; try (intros []; discriminate); auto.
Qed.
Lemma ev_var : forall s x s' o, idle s -> (evaluates (NExpr (EVar x)) s s' o <-> s' = s /\ get_variable s x = Some o).
Proof.
  intros s x s' o I. split.
  - intros H. apply ev_expr_inv in H; [|exact I]. destruct H as [f H]. specialize (H f (le_n f)). cbn in H.
    destruct (get_variable s x) as [o'|]; inversion H; subst. auto.
  - intros [-> G]. apply ev_expr; [exact I|]. exists 0. intros f _. cbn. now rewrite G.
Qed.
End Eval.

(** choose one fuel for all the evaluations at hand *)
Ltac lates :=
  repeat match goal with
  | H : evaluates _ _ _ _ _ _ |- late _ => apply (proj1 (late_evaluates _ _ _ _ _ _)) in H
  end;
  repeat match goal with
  | H : late _, K : late _ |- late _ => pose proof (late_and _ _ H K); clear H K
  end;
  match goal with
  | H : late _ |- late _ => eapply late_impl; [|exact H]; clear H; cbv beta; intros ?f ?; repeat match goal with H : _ /\ _ |- _ => destruct H end
  | |- late _ => exists 0; intros ?f _
  end.
Ltac rew := repeat match goal with
  | H : ?a = _ |- context [?a] => rewrite H
  end.
