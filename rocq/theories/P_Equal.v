(** C38: == is structural equality. *)
From Verif Require Import Base M_Interp S_Interp L_Interp L_Mono L_Eval.

Section Equal.
Variable other : bytes -> option builtin.
Variable method : obj -> bytes -> option builtin.
Notation evaluates := (evaluates other method).
(** the expression ends, and is true *)
Definition holds (e : expr) (s : state) : Prop :=
  exists s' o, evaluates (NExpr e) s s' o /\ nth_error (heap s') o = Some (OBool true).

(** For any operands that end with values [v] and [w], == and != end with the boolean that tells
    whether the values are the same trees. *)
Theorem C38_equality : forall e1 e2 s s1 s2 l r v w,
  idle s -> evaluates (NExpr e1) s s1 l -> evaluates (NExpr e2) s1 s2 r ->
  l <> disabler_id -> r <> disabler_id ->
  denotes (heap s2) l v -> denotes (heap s2) r w ->
  exists b, (b = true <-> same v w) /\
    evaluates (NExpr (ECmp CEq e1 e2)) s (made [OBool b] s2) (length (heap s2)) /\
    evaluates (NExpr (ECmp CNe e1 e2)) s (made [OBool (negb b)] s2) (length (heap s2)).
Proof.
  intros e1 e2 s s1 s2 l r v w I H1 H2 Nl Nr D1 D2.
  assert (X : exists b, (b = true <-> same v w) /\ late (fun f => equal f s2 l r = Some b)).
  { destruct (equal_spec s2 v w l r (S (vdepth v)) D1 D2 (le_n _)) as (b & Eb & Hb).
    exists b. split; [exact Hb|]. exists (S (vdepth v)). intros f L. eapply equal_mono; eassumption. }
  destruct X as (b & Hb & Q). exists b. split; [exact Hb|].
  apply Nat.eqb_neq in Nl, Nr.
  split; (apply ev_expr; [exact I|]; lates;
    cbn [node_expr]; unfold comparison, bind; rew; cbn [orb]; rew; reflexivity).
Qed.


(** x == y for two variables *)
Lemma cmp_vars : forall s x y l r v w, idle s ->
  get_variable s x = Some l -> get_variable s y = Some r -> l <> disabler_id -> r <> disabler_id ->
  denotes (heap s) l v -> denotes (heap s) r w ->
  (holds (ECmp CEq (EVar x) (EVar y)) s <-> same v w).
Proof.
  intros s x y l r v w I Gx Gy Nl Nr D1 D2.
  destruct (C38_equality (EVar x) (EVar y) s s s l r v w I) as (b & Hb & Q & _); auto.
  1,2: (apply ev_var; auto).
  rewrite <- Hb. split.
  - intros (s' & o & H & T). destruct (evaluates_det _ _ _ _ _ _ _ _ Q H) as [<- <-].
    unfold made in T. cbn in T. rewrite nth_error_app2, Nat.sub_diag in T by lia. cbn in T. congruence.
  - intros ->. exists (made [OBool true] s), (length (heap s)). split; [exact Q|].
    unfold made. cbn. now rewrite nth_error_app2, Nat.sub_diag by lia.
Qed.

(** == is an equivalence on variables that hold values. *)
Definition valued (s : state) (x : bytes) : Prop :=
  exists o v, get_variable s x = Some o /\ o <> disabler_id /\ denotes (heap s) o v.
Theorem C38_equivalence : forall s x y z, idle s -> valued s x -> valued s y -> valued s z ->
  holds (ECmp CEq (EVar x) (EVar x)) s /\
  (holds (ECmp CEq (EVar x) (EVar y)) s -> holds (ECmp CEq (EVar y) (EVar x)) s) /\
  (holds (ECmp CEq (EVar x) (EVar y)) s -> holds (ECmp CEq (EVar y) (EVar z)) s ->
   holds (ECmp CEq (EVar x) (EVar z)) s).
Proof.
  intros s x y z I (l & v & Gx & Nx & Dx) (r & w & Gy & Ny & Dy) (m & u & Gz & Nz & Dz).
  rewrite (cmp_vars s x x l l v v), (cmp_vars s x y l r v w), (cmp_vars s y x r l w v), (cmp_vars s y z r m w u), (cmp_vars s x z l m v u) by assumption.
  split; [apply same_refl|]. split; [apply same_sym|apply same_trans].
Qed.

(** [in] on an array: is an element equal to the value? *)
Theorem C38_membership : forall e1 e2 s s1 s2 l r v vs,
  idle s -> evaluates (NExpr e1) s s1 l -> evaluates (NExpr e2) s1 s2 r ->
  l <> disabler_id -> r <> disabler_id ->
  denotes (heap s2) l v -> denotes (heap s2) r (VArr vs) ->
  exists b, (b = true <-> Exists (same v) vs) /\
    evaluates (NExpr (ECmp CIn e1 e2)) s (made [OBool b] s2) (length (heap s2)) /\
    evaluates (NExpr (ECmp CNotIn e1 e2)) s (made [OBool (negb b)] s2) (length (heap s2)).
Proof.
  intros e1 e2 s s1 s2 l r v vs I H1 H2 Nl Nr D1 D2.
  apply den_inv in D2. destruct D2 as (x & Ex & a & -> & F).
  assert (X : exists b, (b = true <-> Exists (same v) vs) /\ late (fun f =>
    (fix scan (a : list nat) : res bool :=
       match a with
       | [] => Ok s2 false
       | x :: a => match equal f s2 l x with
                   | Some true => Ok s2 true
                   | Some false => scan a
                   | None => OutOfFuel
                   end
       end) a = Ok s2 b)).
  { clear Ex. induction F as [|y w a vs Dy F (b & Hb & Q)].
    - exists false. split; [split; [discriminate|]; intros X; inversion X|]. exists 0. reflexivity.
    - destruct (equal_spec s2 v w l y (S (vdepth v)) D1 Dy (le_n _)) as (c & Ec & Hc).
      assert (Qc : late (fun f => equal f s2 l y = Some c)).
      { exists (S (vdepth v)). intros f L. eapply equal_mono; eassumption. }
      exists (c || b)%bool. split.
      + rewrite Exists_cons, <- Hb, <- Hc. apply orb_true_iff.
      + clear H1 H2. lates. cbv beta in *. rew. destruct c; [reflexivity|]. rew. reflexivity. }
  destruct X as (b & Hb & Q). exists b. split; [exact Hb|].
  apply Nat.eqb_neq in Nl, Nr. apply obj_at_nth in Ex.
  split; (apply ev_expr; [exact I|]; lates;
    cbn [node_expr]; unfold comparison, bind; rew; cbn [orb]; unfold look; rew; reflexivity).
Qed.
End Equal.
Print Assumptions C38_equality.
Print Assumptions C38_equivalence.
Print Assumptions C38_membership.

(** Two nested dictionaries with their entries in different orders are equal, and differ from a third. *)
Definition d1 := EDict [(EStr (B "a"), EArr [ENum 1; EStr (B "x")]); (EStr (B "b"), EBool true)].
Definition d2 := EDict [(EStr (B "b"), EBool true); (EStr (B "a"), EArr [ENum 1; EStr (B "x")])].
Definition ab := after [SAssign (B "a") d1; SAssign (B "b") d2; SAssign (B "c") (EArr [EVar (B "a")])].
Example C38_case : idle ab /\ valued ab (B "a") /\ valued ab (B "b") /\ valued ab (B "c") /\
  holds none no_methods (ECmp CEq (EVar (B "a")) (EVar (B "b"))) ab /\
  holds none no_methods (ECmp CIn (EVar (B "b")) (EVar (B "c"))) ab.
Proof.
  split; [now split|].
  assert (Va : valued ab (B "a")).
  { eexists. exists (VDict [(B "a", VArr [VNum 1; VStr (B "x")]); (B "b", VBool true)]).
    split; [vm_compute; reflexivity|]. split; [discriminate|].
    eapply dn_dict; [vm_compute; reflexivity|repeat constructor; cbn; intuition discriminate|].
    repeat (constructor; [split; [reflexivity|]|]); [|apply dn_bool; reflexivity|constructor].
    eapply dn_arr; [vm_compute; reflexivity|]. constructor; [apply dn_num; reflexivity|].
    constructor; [apply dn_str; reflexivity|constructor]. }
  split; [exact Va|]. split; [|split].
  - eexists. exists (VDict [(B "b", VBool true); (B "a", VArr [VNum 1; VStr (B "x")])]).
    split; [vm_compute; reflexivity|]. split; [discriminate|].
    eapply dn_dict; [vm_compute; reflexivity|repeat constructor; cbn; intuition discriminate|].
    repeat (constructor; [split; [reflexivity|]|]); [apply dn_bool; reflexivity| |constructor].
    eapply dn_arr; [vm_compute; reflexivity|]. constructor; [apply dn_num; reflexivity|].
    constructor; [apply dn_str; reflexivity|constructor].
  - destruct Va as (o & v & G & N & D).
    eexists. exists (VArr [v]). split; [vm_compute; reflexivity|]. split; [discriminate|].
    eapply dn_arr; [vm_compute; reflexivity|]. constructor; [|constructor].
    vm_compute in G. inversion G; subst. exact D.
  - split; (eexists; eexists; split; [exists 20; vm_compute; reflexivity|vm_compute; reflexivity]).
Qed.

(** The exclusion is needed: an array can be made to contain itself, and comparing two such never
    ends. *)
Definition cyclic := after
  [SAssign (B "a") (EArr []); SPlusAssign (B "a") (EArr [EVar (B "a")]);
   SAssign (B "b") (EArr []); SPlusAssign (B "b") (EArr [EVar (B "b")])].
Theorem C38_exclusions_are_needed :
  diverges none no_methods (NExpr (ECmp CEq (EVar (B "a")) (EVar (B "b")))) cyclic.
Proof.
  set (l := match get_variable cyclic (B "a") with Some o => o | None => 0 end).
  set (r := match get_variable cyclic (B "b") with Some o => o | None => 0 end).
  assert (Q : forall f, equal f cyclic l r = None).
  { induction f as [|f IH]; [reflexivity|]. cbn [equal].
    replace (l =? r) with false by (vm_compute; reflexivity).
    replace (obj_at cyclic l) with (OArr [l]) by (vm_compute; reflexivity).
    replace (obj_at cyclic r) with (OArr [r]) by (vm_compute; reflexivity).
    cbn [length Nat.eqb]. now rewrite IH. }
  intros f. destruct f as [|[|f]]; [reflexivity|vm_compute; reflexivity|].
  rewrite interp_expr by (now split). cbn [node_expr]. unfold comparison, bind.
  assert (Ga : get_variable cyclic (B "a") = Some l) by (vm_compute; reflexivity).
  assert (Gb : get_variable cyclic (B "b") = Some r) by (vm_compute; reflexivity).
  rewrite interp_expr by (now split). cbn [node_expr]. rewrite Ga.
  rewrite interp_expr by (now split). cbn [node_expr]. rewrite Gb.
  replace ((l =? disabler_id) || (r =? disabler_id))%bool with false by (vm_compute; reflexivity).
  cbv beta iota zeta. now rewrite Q.
Qed.
Print Assumptions C38_exclusions_are_needed.
