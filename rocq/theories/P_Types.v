(** Properties of types and of the arguments of functions. *)
From Coq Require Import NArith Lia.
From Verif Require Import Base M_Types S_Types L_Types L_Args.

(** C50: a value passes a declared type exactly when it belongs to the set the type describes.
    Missing: a disabler given where a list[..] or dict[..] type is tried, the absence of a value given
    where func is, and void as an alternative of a union; see C50_refuted. *)
Theorem C50_type_check_partial : forall tb tag s fuel v,
  named s -> stands_for tb tag s -> (N.of_nat (length tb) <= 2 ^ 32)%N -> length tb < fuel ->
  wellformed v -> ~ meets s v -> ~ void_in_union s v ->
  (typecheck fuel tb v tag = Yes <-> member s v) /\ (typecheck fuel tb v tag = No <-> ~ member s v).
Proof. intros tb tag s fuel v N S L F W M V. apply decides_iff. now apply stands_decides. Qed.

(** list[str|list[int]] after another type has been declared; the values ['a', [1]] and [[true]] *)
Example C50_example :
  let '(t1, tb1) := parse_type (SDict SAny) [] in
  let '(t2, tb2) := parse_type (SList (SOr (SName 8) (SList (SName 7)))) tb1 in
  let good := OArray [OOther 8 0; OArray [OOther 7 1]] in
  let bad := OArray [OArray [OOther 4 2]] in
  let s := SList (SOr (SName 8) (SList (SName 7))) in
  stands_for (tb2 ++ [(0, 0)%N]) t2 s /\ ~ meets s good /\ ~ meets s bad /\ ~ void_in_union s good /\ wellformed good
  /\ typecheck 10 (tb2 ++ [(0, 0)%N]) good t2 = Yes /\ typecheck 10 (tb2 ++ [(0, 0)%N]) bad t2 = No.
Proof.
  destruct (parse_type (SDict SAny) []) as [t1 tb1] eqn:E1.
  destruct (parse_type (SList (SOr (SName 8) (SList (SName 7)))) tb1) as [t2 tb2] eqn:E2. cbv zeta.
  refine (conj _ (conj _ (conj _ (conj _ (conj _ _))))).
  6: { vm_compute in E1. injection E1 as <- <-. vm_compute in E2. injection E2 as <- <-. split; reflexivity. }
  - left. exists tb1, tb2, [(0, 0)%N]. split; [exact E2|reflexivity].
  - apply proper_meets. repeat constructor; cbn; try lia; intros H; repeat destruct H as [H|H]; discriminate || contradiction.
  - apply proper_meets. repeat constructor; cbn; try lia; intros H; repeat destruct H as [H|H]; discriminate || contradiction.
  - apply proper_void. repeat constructor; cbn; try lia; intros H; repeat destruct H as [H|H]; discriminate || contradiction.
  - apply proper_wf. repeat constructor; cbn; try lia; intros H; repeat destruct H as [H|H]; discriminate || contradiction.
Qed.

(** Disablers pass every type without list[..] and dict[..]. *)
Theorem C50_disablers_partial : forall tb tag s fuel,
  named s -> stands_for tb tag s -> (N.of_nat (length tb) <= 2 ^ 32)%N -> length tb < fuel ->
  ~ compound s -> typecheck fuel tb ODisabler tag = Yes.
Proof.
  intros tb tag s fuel N S L F C. apply (C50_type_check_partial tb tag s fuel ODisabler); auto.
  - constructor.
  - intros M. apply C. clear -M. induction s; cbn in *; try tauto. destruct M; discriminate.
  - intros V. clear -V C. induction s; cbn in *; try tauto. destruct V as [[V _]|V]; [discriminate|tauto].
  - destruct s; cbn; now left.
Qed.

(** A disabler makes the check of list[str] abort, a missing value makes the check of func abort, and
    void|str refuses void. *)
Theorem C50_refuted :
  (exists tb tag, stands_for tb tag (SList (SName 8)) /\ member (SList (SName 8)) ODisabler
     /\ forall fuel, 1 < fuel -> typecheck fuel tb ODisabler tag = Abort)
  /\ (exists tb tag, stands_for tb tag (SName 32) /\ ~ member (SName 32) ONull
     /\ forall fuel, 0 < fuel -> typecheck fuel tb ONull tag = Abort)
  /\ (exists tb tag, stands_for tb tag (SOr (SName 0) (SName 8)) /\ member (SOr (SName 0) (SName 8)) ONull
     /\ forall fuel, 0 < fuel -> typecheck fuel tb ONull tag = No).
Proof.
  split; [|split].
  - exists (snd (parse_type (SList (SName 8)) [])), (fst (parse_type (SList (SName 8)) [])). split; [|split].
    + left. eexists [], _, []. split; [|symmetry; apply app_nil_r]. apply surjective_pairing.
    + left. reflexivity.
    + intros [|[|fuel]] L; try lia. reflexivity.
  - exists [], (tc 32). split; [|split].
    + left. exists [], [], []. auto.
    + intros [H|H]; discriminate.
    + intros [|fuel] L; [lia|reflexivity].
  - exists [], (N.lor TAG (tc 8)). split; [|split].
    + left. exists [], [], []. auto.
    + right. left. right. reflexivity.
    + intros [|fuel] L; [lia|reflexivity].
Qed.

(** C49: a function is run exactly when the arguments match its signature, and then it sees the
    arguments.  The arguments of the call have no disablers in them (for those, see
    C49_no_disablers), and no missing values.
    Missing: more than sixteen list[..], dict[..] and union types declared before, and glob[..] of a
    type in which these occur; see C49_refuted. *)
Theorem C49_matching_calls_partial : forall fuel tb immune sg pos opts kws args,
  declared tb sg pos opts kws -> length tb <= 16 -> length tb < fuel ->
  (forall a v, In a args -> snd a = Some v -> proper v) ->
  (forall p o k, interp_args fuel tb immune pos opts kws args = ROk (p, o, k) -> binds sg args p o (map kval k))
  /\ (forall p o vals, binds sg args p o vals ->
        exists k, interp_args fuel tb immune pos opts kws args = ROk (p, o, k) /\ map kval k = vals)
  /\ ((forall p o vals, ~ binds sg args p o vals) -> interp_args fuel tb immune pos opts kws args = RErr).
Proof.
  intros fuel tb immune sg pos opts kws args D L F P.
  assert (PA : Forall proper_arg args). { apply Forall_forall. intros a Ha v E. now apply (P a). }
  split; [|split].
  - intros p o k. now apply call_sound.
  - intros p o vals. now apply call_complete.
  - intros N. destruct (call_good fuel tb immune L F sg pos opts kws args D PA) as [[[[p o] k] E]|E]; [|exact E].
    destruct (N p o (map kval k)). now apply (call_sound fuel tb immune L F sg pos opts kws args).
Qed.

(** Two different results are not possible. *)
Theorem C49_one_reading_partial : forall tb sg pos opts kws args p o vals p' o' vals',
  declared tb sg pos opts kws -> length tb <= 16 ->
  (forall a v, In a args -> snd a = Some v -> proper v) ->
  binds sg args p o vals -> binds sg args p' o' vals' -> p = p' /\ o = o' /\ vals = vals'.
Proof.
  intros tb sg pos opts kws args p o vals p' o' vals' D L P H H'.
  destruct (C49_matching_calls_partial (S (length tb)) tb false sg pos opts kws args D L (Nat.lt_succ_diag_r _) P) as (_ & C & _).
  destruct (C _ _ _ H) as (k & E & <-), (C _ _ _ H') as (k' & E' & <-). rewrite E in E'. now injection E' as -> -> ->.
Qed.

(** func f(a file, b listify[str], c: list[int]) with the call f([file], [['x'], 'y'], kwargs: {'c': [1]}) *)
Example C49_example :
  let '(t, tb) := parse_type (SList (SName 7)) [] in
  let sg := mkSig [TPlain (SName 5); TListify (SName 8)] None None (Some [(B "c", TPlain (SList (SName 7)), true)]) in
  let kws := [mkKw (B "c") t true None] in
  let args := [(None, Some (OArray [OOther 5 0])); (None, Some (OArray [OArray [OOther 8 1]; OOther 8 2]));
               (Some (B "kwargs"), Some (ODict [(B "c", OArray [OOther 7 3])]))] in
  declared tb sg [5; N.lor LISTIFY (tc 8)]%N None (Some kws)
  /\ (forall a v, In a args -> snd a = Some v -> proper v)
  /\ interp_args 3 tb false [5; N.lor LISTIFY (tc 8)]%N None (Some kws) args
     = ROk ([OOther 5 0; OArray [OOther 8 1; OOther 8 2]], [], [mkKw (B "c") t true (Some (OArray [OOther 7 3]))])
  /\ interp_args 3 tb false [5; N.lor LISTIFY (tc 8)]%N None (Some kws) (firstn 2 args) = RErr.
Proof.
  cbv beta iota zeta delta [parse_type make_complex_type].
  split; [|split; [|split; reflexivity]].
  - split; [|split; [exact I|]].
    + eexists. split; [|reflexivity]. constructor; [|constructor; [|constructor]].
      * split; [cbn; lia|]. right. exists 5%N. repeat split; lia.
      * split; [cbn; lia|]. eexists. split; [|reflexivity]. left. exists [], [], ([] ++ [(tc k_array, obj_type_to_tc_type 7)]). auto.
    + split; [repeat constructor; intros []|]. constructor; [|constructor]. repeat split; [cbn; lia|].
      left. eexists [], _, []. split; reflexivity.
  - intros a v [<-|[<-|[<-|[]]]] E; injection E as <-; repeat constructor; cbn; try lia; intros H; repeat destruct H as [H|H]; discriminate || contradiction.
Qed.

(** A function is not run when one of its arguments, other than kwargs:, is a disabler or an array with
    a disabler in it. *)
Theorem C49_no_disablers : forall fuel tb pos opts kws args r,
  interp_args fuel tb false pos opts kws args = ROk r ->
  forall a, In a args -> fst a <> Some (B "kwargs") ->
  exists v, snd a = Some v /\ forall l, leaves v l -> ~ In ODisabler l.
Proof.
  intros fuel tb pos opts kws args r E a Ha NK. apply call_clean in E. rewrite Forall_forall in E.
  destruct (E a Ha NK) as (v & EV & C). exists v. split; [exact EV|]. intros l Lv. apply leaves_flat in Lv. now subst.
Qed.
Example C49_no_disablers_example :
  interp_args 1 [] false [8]%N None None [(None, Some (OOther 8 0))] = ROk ([OOther 8 0], [], [])
  /\ interp_args 1 [] false [tc_any] None None [(None, Some (OArray [OArray [ODisabler]]))] = RDisabled.
Proof. split; reflexivity. Qed.

(** A list[file] parameter refuses a list of one file if it is the seventeenth of these types, a
    glob[list[str]] parameter refuses lists of strings, and kwargs: disabler() is an internal error. *)
Theorem C49_refuted :
  (exists tb t f, stands_for tb t (SList (SName 5)) /\ length tb = 17 /\ proper f
     /\ takes (TPlain (SList (SName 5))) (OArray [f]) (OArray [f])
     /\ forall fuel, 2 <= fuel -> interp_args fuel tb false [t] None None [(None, Some (OArray [f]))] = RErr)
  /\ (exists tb t v, stands_for tb t (SList (SName 8)) /\ length tb = 1 /\ proper v /\ takes_rest (SList (SName 8)) v [v]
     /\ forall fuel, 2 <= fuel -> interp_args fuel tb false [N.lor GLOB t] None None [(None, Some v)] = RErr)
  /\ (forall fuel tb, 1 <= fuel -> interp_args fuel tb false [] None (Some []) [(Some (B "kwargs"), Some ODisabler)] = RAbort).
Proof.
  assert (PF : forall k, (1 <= k <= 8)%N -> (k <> 2)%N -> proper (OOther k 0)).
  { intros k R N. constructor; [lia|]. intros [H|[H|[H|[]]]]; lia. }
  split; [|split].
  - exists (repeat (0, 0)%N 16 ++ [(tc k_array, tc 5)]), (complex_type 16 ct_nested), (OOther 5 0).
    split; [|split; [|split; [|split]]].
    + left. exists (repeat (0, 0)%N 16). eexists _, []. split; [reflexivity|]. now rewrite app_nil_r.
    + reflexivity.
    + apply PF; lia.
    + apply tk_plain.
      * right. eexists. split; [reflexivity|]. constructor; [|constructor]. right. reflexivity.
      * intros f (_ & _ & _ & NC). apply NC. exact I.
    + intros [|[|fuel]] L; try lia. reflexivity.
  - exists [(tc k_array, tc 8)], (complex_type 0 ct_nested), (OArray [OOther 8 0]).
    split; [|split; [|split; [|split]]].
    + left. exists []. eexists _, []. split; reflexivity.
    + reflexivity.
    + constructor. constructor; [|constructor]. apply PF; lia.
    + apply tr_value.
      * intros a E. injection E as <-. right. eexists. split; [reflexivity|]. constructor; [|constructor]. right. reflexivity.
      * apply tk_plain.
        -- right. eexists. split; [reflexivity|]. constructor; [|constructor]. right. reflexivity.
        -- intros f (_ & _ & _ & NC). apply NC. exact I.
    + intros [|[|fuel]] L; try lia. reflexivity.
  - intros [|fuel] tb L; [lia|]. reflexivity.
Qed.

Print Assumptions C50_type_check_partial.
Print Assumptions C50_disablers_partial.
Print Assumptions C50_refuted.
Print Assumptions C49_matching_calls_partial.
Print Assumptions C49_one_reading_partial.
Print Assumptions C49_no_disablers.
Print Assumptions C49_refuted.
