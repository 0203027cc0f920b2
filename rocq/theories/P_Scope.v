(** C39: assigned values are independent; C44: functions and their callers' variables; C79: += and
    other variables; C80: what functions get as arguments. *)
From Verif Require Import Base M_Interp S_Interp L_Interp L_Mono L_Eval L_Effects L_Scope L_An L_Call L_Vars.

Section Scope.
Variable other : bytes -> option builtin.
Variable method : obj -> bytes -> option builtin.
Hypothesis Hother : forall f b, other f = Some b -> tame b.
Hypothesis Hmethod : forall x m b, method x m = Some b -> tame b.
Notation evaluates := (evaluates other method).

(** ** C39 *)
(** [b] keeps its value through any += on [a] *)
Definition kept (a b : bytes) (v : value) (s : state) : Prop :=
  well_formed s /\ nth_error (heap s) disabler_id = Some ODisabler /\
  exists ob oa x, get_variable s b = Some ob /\ denotes (heap s) ob v /\
    get_variable s a = Some oa /\ nth_error (heap s) oa = Some x /\
    (container x -> forall y, denotes (upd oa y (heap s)) ob v).
Lemma wf_bound : forall i x o s, well_formed s -> well_formed (bound i x o s).
Proof.
  intros i x o s (W1 & W2 & W3). split; [exact W1|]. split; [|exact W3].
  intros st j. unfold bound. cbn. rewrite upd_length. apply W2.
Qed.
Lemma wf_heap : forall s h, well_formed s ->
  (forall o ps r body st, nth_error h o = Some (OFunc ps r body st) -> nth_error (heap s) o = Some (OFunc ps r body st)) ->
  well_formed (with_heap h s).
Proof.
  intros s h (W1 & W2 & W3) H. split; [exact W1|]. split; [exact W2|]. intros o ps r body st E. apply H in E. eapply W3; exact E.
Qed.
Lemma obj_container : forall s o x, obj_at s o = x -> container x -> nth_error (heap s) o = Some x.
Proof.
  intros s o x H C. unfold obj_at in H. destruct (nth_error (heap s) o) as [y|] eqn:N.
  - rewrite (nth_error_nth _ _ _ N) in H. congruence.
  - rewrite nth_overflow in H by (now apply nth_error_None). subst x. destruct C.
Qed.
Lemma upd_func : forall s o y o' ps r body st, container y -> 
  nth_error (upd o y (heap s)) o' = Some (OFunc ps r body st) -> nth_error (heap s) o' = Some (OFunc ps r body st).
Proof.
  intros s o y o' ps r body st C H. destruct (Nat.eq_dec o o') as [<-|N]; [|now rewrite nth_error_upd_other in H].
  destruct (Nat.lt_ge_cases o (length (heap s))) as [L|L].
  - rewrite nth_error_upd_same in H by exact L. inversion H; subst. destruct C.
  - assert (nth_error (upd o y (heap s)) o = None) by (apply nth_error_None; rewrite upd_length; lia). congruence.
Qed.
(** quiet expressions keep states well formed: they make no functions *)
Lemma quiet_wf : forall e s s' o, quiet other e -> evaluates (NExpr e) s s' o -> well_formed s -> well_formed s'.
Proof.
  intros e s s' o Q [f H] W.
  assert (P := interp_pres other method Hother Hmethod false false false false well_formed (fun s s' => keeps s s')).
  assert (X : pres well_formed (fun s s' => keeps s s') (interp other method f (NExpr e))).
  { apply P; try (intros; discriminate).
    - intros s1 s2 W1 E _. inversion E as [[E1 E2 E3 E4]]. split.
      + unfold well_formed in *. now rewrite E1, E2, E3, E4.
      + intros o1 x. now rewrite E1.
    - apply keeps_trans.
    - intros s1 l W1 Nl. split.
      + apply wf_heap; [exact W1|]. intros. eapply app_not_func; eassumption.
      + apply make_rt.
    - intros s1 s2 o1 ps r body st _ K E. eapply keeps_func; eassumption.
    - exact Q. }
  specialize (X s W). rewrite H in X. apply X.
Qed.

Lemma kept_step : forall a b v e s s' o, a <> b -> quiet other e -> kept a b v s ->
  evaluates (NStmt (SPlusAssign a e)) s s' o -> kept a b v s'.
Proof.
  intros a b v e s s' o Nab Q K H.
  destruct (idle_dec s) as [Is|Is]; [|apply busy_inv in H; [|exact Is]; destruct H as [-> _]; exact K].
  destruct K as (W & Hd & ob & oa & x & Gb & Db & Ga & Hx & Hc).
  destruct (plus_step other method Hother Hmethod a e s s' o Is Q H) as (s1 & r & Er & R & P).
  assert (W1 := quiet_wf _ _ _ _ Q Er W).
  assert (Lb : get_local_variable s1 b = get_local_variable s b) by (now apply rq_get).
  assert (La : get_local_variable s1 a = get_local_variable s a) by (now apply rq_get).
  assert (G := proj1 R).
  assert (Hd1 : nth_error (heap s1) disabler_id = Some ODisabler) by (eapply grows_nth; eassumption).
  assert (Hx1 : nth_error (heap s1) oa = Some x) by (eapply grows_nth; eassumption).
  assert (Db1 : denotes (heap s1) ob v) by (eapply denotes_grows; eassumption).
  assert (Loa : oa < length (heap s)) by (apply nth_error_Some; congruence).
  assert (Hc1 : container x -> forall y, denotes (upd oa y (heap s1)) ob v).
  { intros C y. destruct G as [l ->]. rewrite upd_app_l by exact Loa. eapply denotes_sub; [|apply (Hc C y)].
    intros o' z E. rewrite nth_error_app1; [exact E|]. apply nth_error_Some. congruence. }
  assert (Heap : forall h y, get_local_variable (with_heap h s1) y = get_local_variable s1 y).
  { intros h y. apply get_same; reflexivity. }
  assert (Eoa : forall i oa', get_local_variable s a = Some (i, oa') -> oa' = oa).
  { intros i oa' E. unfold get_variable in Ga. rewrite E in Ga. now inversion Ga. }
  destruct P as [i oa' y Gl C Cy ->|i oa' y Gl C Fy ->|i oa' Gl ->]; assert (oa' = oa) by (now apply (Eoa i)); subst oa'.
  - assert (Cx : container x) by (apply obj_at_nth in Hx1; now rewrite Hx1 in C).
    assert (Noa : oa <> disabler_id) by (intros ->; rewrite Hd1 in Hx1; inversion Hx1; subst x; destruct Cx).
    split; [|split].
    + apply wf_bound, wf_heap; [exact W1|]. intros o' ps rr body st E. exact (upd_func _ _ _ _ _ _ _ _ Cy E).
    + cbn [heap bound with_scopes with_heap]. now rewrite nth_error_upd_other.
    + exists ob, oa, y. cbn [heap bound with_scopes with_heap]. split; [|split; [|split; [|split]]].
      * rewrite (get_same_v s1); [now rewrite (get_same_v s s1)|]. rewrite bound_other by exact Nab. apply Heap.
      * now apply Hc1.
      * unfold get_variable. erewrite bound_found; [reflexivity| |rewrite Heap, La; exact Gl].
        apply wf_heap; [exact W1|]. intros o' ps rr body st E. exact (upd_func _ _ _ _ _ _ _ _ Cy E).
      * apply nth_error_upd_same. apply nth_error_Some. congruence.
      * intros _ z. rewrite upd_upd. now apply Hc1.
  - assert (Wh : well_formed (with_heap (heap s1 ++ [y]) s1)).
    { apply wf_heap; [exact W1|]. intros o' ps rr body st E. eapply app_not_func; [|exact E]. constructor; auto. }
    assert (Gn : grows s1 (with_heap (heap s1 ++ [y]) s1)) by (now exists [y]).
    split; [now apply wf_bound|]. split; [cbn; exact (grows_nth _ _ _ _ Gn Hd1)|].
    exists ob, (length (heap s1)), y. cbn [heap bound with_scopes with_heap]. split; [|split; [|split; [|split]]].
    + rewrite (get_same_v s1); [now rewrite (get_same_v s s1)|]. rewrite bound_other by exact Nab. apply Heap.
    + exact (denotes_grows _ _ _ _ Gn Db1).
    + unfold get_variable. erewrite bound_found; [reflexivity|exact Wh|rewrite Heap, La; exact Gl].
    + now rewrite nth_error_app2, Nat.sub_diag by lia.
    + intros Cy. contradiction.
  - split; [now apply wf_bound|]. split; [exact Hd1|].
    exists ob, disabler_id, ODisabler. cbn [heap bound with_scopes with_heap]. split; [|split; [|split; [|split]]]; auto.
    + rewrite (get_same_v s1); [now rewrite (get_same_v s s1)|]. now apply bound_other.
    + unfold get_variable. erewrite bound_found; [reflexivity|exact W1|rewrite La; exact Gl].
    + intros [].
Qed.

(** After [b = a], any number of += on [a] leave [b] with the value that [a] had. *)
Theorem C39_assigned_values_independent : forall a b es v s s' o,
  a <> b -> Forall (quiet other) es -> idle s -> well_formed s ->
  nth_error (heap s) disabler_id = Some ODisabler -> has_value s a v ->
  evaluates (NBlock (SAssign b (EVar a) :: map (SPlusAssign a) es)) s s' o ->
  has_value s' b v.
Proof.
  intros a b es v s s' o Nab Q Is W Hd (oa & Ga & Da) H.
  apply block_steps in H; [|exact Is]. inversion H as [|? ? ? ? s1 ? o1 ? H1 H2]; subst.
  assert (K : kept a b v s1).
  { clear H H2. apply ev_stmt_inv in H1; [|exact Is]. destruct H1 as [f H1]. specialize (H1 f (le_n f)). cbn [node_stmt] in H1.
    apply bind_ok in H1. destruct H1 as (s0 & l & HE & H1). apply evaluates_at in HE. apply ev_var in HE; [|exact Is].
    destruct HE as [-> HE]. rewrite Ga in HE. inversion HE; subst l. clear HE.
    unfold bind at 1, look in H1. cbv beta iota in H1.
    assert (Da' := Da). apply den_inv in Da'. destruct Da' as (x & Ex & Dx). rewrite (obj_at_nth _ _ _ Ex) in H1.
    assert (Loa : oa < length (heap s)) by (apply nth_error_Some; congruence).
    apply bind_ok in H1. destruct H1 as (s2 & ob & HM & H1).
    assert (X : (s2 = s /\ ob = oa /\ ~ container x) \/ (s2 = with_heap (heap s ++ [x]) s /\ ob = length (heap s) /\ container x)).
    { destruct x; try (left; inversion HM; subst; repeat split; auto; intros []); right; inversion HM; subst; repeat split; auto. }
    destruct (ob =? 0); [discriminate|].
    apply bind_ok in H1. destruct H1 as (s3 & u0 & HA & H1). inversion H1; subst s3 o1. clear H1.
    apply assign_local_ok in HA. destruct HA as (st & i & Est & ->).
    destruct X as [(-> & -> & C)|(-> & -> & C)].
    - split; [now apply wf_bound|]. split; [exact Hd|]. exists oa, oa, x.
      split; [unfold get_variable; now rewrite (bound_last s b i oa st)|]. split; [exact Da|].
      split; [rewrite (get_same_v s); [exact Ga|apply bound_other; congruence]|]. split; [exact Ex|]. intros C'. contradiction.
    - assert (Gn : grows s (with_heap (heap s ++ [x]) s)) by (now exists [x]).
      assert (Wh : well_formed (with_heap (heap s ++ [x]) s)).
      { apply wf_heap; [exact W|]. intros o' ps rr body st' E. eapply app_not_func; [|exact E]. constructor; auto. destruct x; try destruct C; exact Logic.I. }
      split; [now apply wf_bound|]. split; [exact (grows_nth _ _ _ _ Gn Hd)|]. exists (length (heap s)), oa, x.
      assert (Av : forall y, denotes (upd oa y (heap s ++ [x])) (length (heap s)) v).
      { intros y. assert (Da1 := denotes_grows _ _ _ _ Gn Da). cbn in Da1.
        apply den_intro with (x := x).
        - rewrite nth_error_upd_other by lia. now rewrite nth_error_app2, Nat.sub_diag by lia.
        - clear Ex HM Est Wh. destruct v as [ | | |vs|kvs|]; cbn in Dx; try (subst x; destruct C).
          + destruct Dx as (l & -> & F). exists l. split; [reflexivity|].
            assert (Fd : forall u, In u vs -> vdepth u < vdepth (VArr vs)).
            { intros u Iu. apply (in_map vdepth), list_max_in in Iu. cbn. fold vdepth. lia. }
            apply (Forall2_in_impl _ _ _ _ F). intros o' u Iu Du. apply (avoid _ _ _ _ _ _ Da1); [|now apply Fd].
            exact (denotes_grows _ _ _ _ Gn Du).
          + destruct Dx as (l & -> & Nd & F). exists l. split; [reflexivity|]. split; [exact Nd|].
            assert (Fd : forall u, In u kvs -> vdepth (snd u) < vdepth (VDict kvs)).
            { intros u Iu. apply (in_map (fun p => vdepth (snd p))), list_max_in in Iu. cbn. fold vdepth. lia. }
            apply (Forall2_in_impl _ _ _ _ F). intros o' u Iu [E Du]. split; [exact E|]. apply (avoid _ _ _ _ _ _ Da1); [|now apply Fd].
            exact (denotes_grows _ _ _ _ Gn Du).
          + destruct Dx as (_ & Ho). destruct x; try contradiction. }
      split; [unfold get_variable; now rewrite (bound_last _ b i _ st)|]. split.
      { cbn. specialize (Av x). replace (upd oa x (heap s ++ [x])) with (heap s ++ [x]) in Av; [exact Av|].
        symmetry. rewrite upd_app_l by exact Loa. f_equal. apply upd_same_nth. exact Ex. }
      split; [rewrite (get_same_v s); [exact Ga|]; rewrite bound_other by congruence; apply get_same; reflexivity|].
      split; [exact (grows_nth _ _ _ _ Gn Ex)|]. intros _. exact Av. }
  clear H H1. revert s1 o1 K H2. induction Q as [|e es Qe Qes IH]; intros s1 o1 K H2; cbn [map] in H2.
  - inversion H2; subst. destruct K as (_ & _ & ob & _ & _ & Gb & Db & _). now exists ob.
  - inversion H2 as [|? ? ? ? s2 ? o2 ? H3 H4]; subst. apply (IH s2 o2); [|exact H4]. eapply kept_step; eassumption.
Qed.

(** ** C79 *)
(** += leaves every other variable that holds no array or dictionary as it was. *)
Theorem C79_scalars_partial : forall x y e v s s' o,
  x <> y -> quiet other e -> idle s -> scalar v -> has_value s y v ->
  evaluates (NStmt (SPlusAssign x e)) s s' o -> has_value s' y v.
Proof.
  intros x y e v s s' o N Q Is Sv (oy & Gy & Dy) H.
  destruct (plus_step other method Hother Hmethod x e s s' o Is Q H) as (s1 & r & _ & R & P).
  assert (Dy1 := denotes_grows _ _ _ _ (proj1 R) Dy).
  assert (Ly : get_local_variable s1 y = get_local_variable s y) by (now apply rq_get).
  assert (Heap : forall h, get_local_variable (with_heap h s1) y = get_local_variable s1 y).
  { intros h. apply get_same; reflexivity. }
  exists oy. destruct P as [i oa z Gl C Cz ->|i oa z Gl C Fz ->|i oa Gl ->];
    (split; [rewrite (get_same_v s); [exact Gy|]; rewrite bound_other by exact N; rewrite ?Heap; exact Ly|]);
    cbn [heap bound with_scopes with_heap].
  - assert (No : oa <> oy).
    { intros ->. apply den_inv in Dy1. destruct Dy1 as (u & Eu & Du). rewrite (obj_at_nth _ _ _ Eu) in C.
      destruct v; cbn in *; try contradiction; try (subst u; destruct C). destruct Du as [_ Ho]. destruct u; contradiction. }
    apply den_inv in Dy1. destruct Dy1 as (u & Eu & Du). apply den_intro with (x := u); [now rewrite nth_error_upd_other|].
    destruct v; cbn in *; try contradiction; exact Du.
  - eapply denotes_sub; [|exact Dy1]. intros o' u E. rewrite nth_error_app1; [exact E|]. apply nth_error_Some. congruence.
  - exact Dy1.
Qed.

(** ** C44 *)
(** A call (or any expression that assigns nothing itself) leaves every variable of its caller as
    it was, if no function there is uses += or unset_variable. *)
Theorem C44_calls_partial : forall e s s' o,
  well_formed s -> plain_functions other s -> pure other e -> evaluates (NExpr e) s s' o ->
  forall x, (forall v, has_value s x v -> has_value s' x v) /\ (undefined s x -> undefined s' x).
Proof.
  intros e s s' o W P Pu [f H] x.
  assert (X := pure_pres other method Hother Hmethod f e Pu s (conj W P)). rewrite H in X.
  destruct X as [_ R]. destruct (R (proj1 W)) as (G & F & U).
  assert (E : get_variable s' x = get_variable s x).
  { apply get_same_v, get_same; [now apply frame_stack; [apply W|]|].
    intros j Ij. rewrite U; [reflexivity|]. now apply in_scope. }
  unfold has_value, undefined. rewrite E. split; [|auto].
  intros v (ov & Gv & Dv). exists ov. split; [exact Gv|]. eapply denotes_grows; eassumption.
Qed.
(** Whatever the functions do, the variables of the top level keep their objects, and those that hold
    no array or dictionary their values. *)
Theorem C44_toplevel_partial : forall e s s' o,
  well_formed s -> own_scopes s -> cur s = 0 -> pure other e -> evaluates (NExpr e) s s' o ->
  forall x, get_variable s' x = get_variable s x /\
    (forall v, scalar v -> has_value s x v -> has_value s' x v).
Proof.
  intros e s s' o W P C0 Pu [f H] x.
  assert (X := pure_top_pres other method Hother Hmethod f e Pu s (conj W P)). rewrite H in X.
  destruct X as [_ R]. destruct (R (proj1 W)) as (K & F & U).
  assert (E : get_variable s' x = get_variable s x).
  { apply get_same_v, get_same; [now apply frame_stack; [apply W|]|].
    intros j Ij. rewrite U; [reflexivity|]. unfold top. now rewrite C0 in Ij. }
  split; [exact E|]. intros v Sv (ov & Gv & Dv). exists ov. split; [now rewrite E|].
  apply den_inv in Dv. destruct Dv as (u & Eu & Du). apply den_intro with (x := u).
  - apply K; [exact Eu|]. destruct v; cbn in Du; try contradiction; try (subst u; intros []).
    destruct Du as [_ Ho]. destruct u; try contradiction; intros [].
  - destruct v; cbn in *; try contradiction; exact Du.
Qed.
(** Every state that a program gets to from the start is such a state, and if the program has no +=
    or unset_variable, so are its functions. *)
Theorem C44_reachable : forall prog s o,
  evaluates (NBlock prog) start_state s o ->
  well_formed s /\ own_scopes s /\ cur s = 0 /\ nth_error (heap s) disabler_id = Some ODisabler /\
  (Forall (plain other) prog -> plain_functions other s).
Proof.
  intros prog s o [f H].
  assert (F0 : forall o ps r body st, nth_error (heap start_state) o = Some (OFunc ps r body st) -> False).
  { intros o1 ps r body st E. do 4 (destruct o1 as [|o1]; [discriminate|]). destruct o1; discriminate. }
  assert (W0 : well_formed start_state).
  { split; [cbn; lia|]. split.
    - intros st i [<-|[]] [<-|[]]. cbn. lia.
    - intros o1 ps r body st E. now apply F0 in E. }
  assert (O0 : own_scopes start_state).
  { split.
    - intros o1 ps r body st E. now apply F0 in E.
    - intros [|[|j]] i Nj Ij; [contradiction|destruct Ij|destruct Ij]. }
  assert (X := top_pres other method Hother Hmethod f (NBlock prog) start_state (conj W0 O0)). rewrite H in X.
  destruct X as [[W O] R]. destruct (R (proj1 W0)) as (K & (_ & Ec & _) & _).
  split; [exact W|]. split; [exact O|]. split; [exact Ec|].
  split; [apply K; [reflexivity|intros []]|].
  intros P. assert (P0 : plain_functions other start_state) by (intros o1 ps r body st E; now apply F0 in E).
  assert (X := plain_pres other method Hother Hmethod f (NBlock prog) P start_state (conj W0 P0)). rewrite H in X.
  apply X.
Qed.

(** ** C80 *)
Lemma assign_params_bound : forall ps vals st k s, NoDup ps -> length ps = length vals ->
  well_formed s -> nth (cur s) (stacks s) [] = st ++ [k] ->
  exists s', assign_params ps vals s = Ok s' tt /\ heap s' = heap s /\ an s' = an s /\ stacks s' = stacks s /\ cur s' = cur s /\
    ctl s' = ctl s /\ length (scopes s') = length (scopes s) /\
    (forall i p v, nth_error ps i = Some p -> nth_error vals i = Some v -> get_variable s' p = Some v) /\
    (forall y, ~ In y ps -> get_variable s' y = get_variable s y).
Proof.
  induction ps as [|p ps IH]; intros [|v vals] st k s N L W E; try discriminate.
  - exists s. repeat split; auto. intros [|i]; discriminate.
  - inversion N as [|? ? Np Nps]; subst. cbn [assign_params]. unfold bind.
    assert (A : assign_local p v s = Ok (bound k p v s) tt).
    { unfold assign_local. rewrite E, rev_app_distr. reflexivity. }
    rewrite A. destruct (IH vals st k (bound k p v s) Nps) as (s' & E1 & E2 & E3 & E4 & E5 & E6 & E7 & E8 & E9);
      [now inversion L|now apply wf_bound|exact E|].
    exists s'. split; [exact E1|]. split; [exact E2|]. split; [exact E3|]. split; [exact E4|]. split; [exact E5|]. split; [exact E6|].
    split; [rewrite E7; unfold bound; cbn; apply upd_length|]. split.
    + intros [|i] q w Hq Hw; [|now apply (E8 i)]. cbn in Hq, Hw. inversion Hq; inversion Hw; subst.
      rewrite E9 by exact Np. unfold get_variable. now rewrite (bound_last s q k w st W E).
    + intros y Ny. rewrite E9 by (intros I; apply Ny; now right).
      apply get_same_v, bound_other. intros ->. apply Ny. now left.
Qed.

(** A call whose arguments call no functions of the build file runs the body with each parameter
    bound to the value of its argument, and its result is what the body returns. *)
Theorem C80_arguments_partial : forall f fo ps body st args vals s s1,
  idle s -> well_formed s ->
  user_call other f -> get_variable s f = Some fo -> nth_error (heap s) fo = Some (OFunc ps true body st) ->
  NoDup ps -> length args = length ps -> length ps < 63 -> Forall (quiet other) args ->
  arguments other method (map (fun _ _ => true) ps) args s s1 vals ->
  exists s_in, heap s_in = heap s1 /\ returning s_in = false /\
    (forall i p v, nth_error ps i = Some p -> nth_error vals i = Some v -> get_variable s_in p = Some v) /\
    forall s2 ob, evaluates (NBlock body) s_in s2 ob -> returned s2 <> 0 ->
    exists s', heap s' = heap s2 /\ cur s' = cur s /\ evaluates (NExpr (ECall f args)) s s' (returned s2).
Proof.
  intros f fo ps body st args vals s s1 Is W [N Ho] Gf Hf Nd Ll L63 Q HA.
  assert (Et : map (fun (_ : bytes) (_ : obj) => true) ps = repeat t_any (length args)).
  { rewrite Ll. clear. induction ps as [|p ps IH]; cbn; [reflexivity|]. f_equal. exact IH. }
  rewrite Et in HA.
  assert (W1 : well_formed s1 /\ Rq s s1 /\ length vals = length args).
  { clear - HA Q W Hother Hmethod. revert s W HA. generalize (repeat t_any (length args)). revert vals.
    induction Q as [|e es Qe Qes IH]; intros vals ts s W HA; inversion HA as [|? ? ? ? ? s2 ? ? ? H1 HX H6]; subst.
    - repeat split; auto; try apply W. now exists []; rewrite app_nil_r.
    - assert (R1 := quiet_ev _ _ Hother Hmethod _ _ _ _ Qe H1). assert (W1 := quiet_wf _ _ _ _ Qe H1 W).
      destruct (IH _ _ _ W1 H6) as (W2 & R2 & L2). split; [exact W2|]. split; [|cbn; now f_equal].
      destruct R1 as (G1 & A1 & B1 & C1 & D1), R2 as (G2 & A2 & B2 & C2 & D2).
      repeat split; try congruence. eapply grows_trans; eassumption. }
  destruct W1 as (W1 & R1 & Lv).
  assert (Hf1 := grows_nth _ _ _ _ (proj1 R1) Hf).
  set (rest := skipn (length ps + 1) (an s)).
  assert (HS := static_ok other method rest args vals s s1 [] Q HA). cbn [app length] in HS.
  set (a := map (pair false) vals ++ (true, 0) :: rest) in *.
  set (se := with_an a s1) in *.
  (* the state in which the parameters are bound *)
  set (sp := with_stacks (upd st (nth st (stacks se) [] ++ [length (scopes se)]) (stacks se))
         (with_scopes (scopes se ++ [[]]) (with_cur st se))).
  assert (Lst : st < length (stacks se)) by (eapply W1; exact Hf1).
  assert (Wp : well_formed sp).
  { destruct W1 as (V1 & V2 & V3). split; [cbn; now rewrite upd_length|]. split.
    - cbn. intros st' i I J. rewrite app_length. cbn. apply in_upd in I. destruct I as [->|I].
      + apply in_app_iff in J. destruct J as [J|[<-|[]]]; [|lia]. assert (i < length (scopes s1)); [|lia].
        eapply V2; [|exact J]. now apply nth_In.
      + specialize (V2 st' i I J). lia.
    - cbn. intros. rewrite upd_length. eapply V3; eassumption. }
  destruct (assign_params_bound ps vals (nth st (stacks se) []) (length (scopes se)) sp Nd) as (sb & B1 & B2 & B3 & B4 & B5 & B6 & B7 & B8 & B9);
    [congruence|exact Wp|cbn; now apply nth_upd_same|].
  exists (with_return false 0 sb). split; [cbn; rewrite B2; reflexivity|]. split; [reflexivity|].
  assert (Gr : forall y, get_variable (with_return false 0 sb) y = get_variable sb y).
  { intros y. apply get_same_v, get_same; reflexivity. }
  split; [intros i p v Hp Hv; rewrite Gr; eapply B8; eassumption|].
  intros s2 ob HB Hr.
  exists (with_cur (cur s) (with_stacks (upd (cur s2) (removelast (nth (cur s2) (stacks s2) [])) (stacks s2)) (with_return false 0 s2))).
  split; [reflexivity|]. split; [reflexivity|].
  apply ev_expr; [exact Is|]. assert (Ev : evaluates (NExpr (EVar f)) s s fo) by (apply ev_var; auto).
  apply obj_at_nth in Hf. apply Nat.eqb_neq in Hr.
  assert (Cs : cur se = cur s) by (apply R1).
  assert (Ga : firstn (length ps) (an se) = map (pair false) vals).
  { cbn. unfold a. rewrite firstn_app, firstn_all2 by (rewrite map_length; lia).
    rewrite map_length. replace (length ps - length vals) with 0 by lia. now rewrite app_nil_r. }
  assert (Gm : map snd (firstn (length ps) (an se)) = vals).
  { rewrite Ga, map_map. cbn. now rewrite map_id. }
  clear HA Is W W1 Wp B8 B9. lates. cbn [node_expr]. unfold call. rewrite kernel_rest by exact N. rewrite Ho. unfold bind at 1. rew.
  unfold bind at 1, look. rew. unfold absorb, func_obj_eval, bind at 1, look. rew.
  replace (64 <=? length ps + 1) with false by (symmetry; apply Nat.leb_gt; lia).
  unfold bind at 1, put. cbn [app]. fold rest. rewrite <- Ll. unfold bind at 1. rew. unfold bind at 1, get.
  rewrite Gm. unfold func_obj_call, bind, get, put, push_local_scope, put. cbv beta iota zeta.
  cbn [cur with_cur stacks scopes].
  match goal with |- context [assign_params ps vals ?x] => change x with sp end.
  rewrite B1. cbv beta iota. rewrite H0. cbn [negb]. rewrite Hr. cbn [negb]. now rewrite Cs.
Qed.
End Scope.
Print Assumptions C39_assigned_values_independent.
Print Assumptions C79_scalars_partial.
Print Assumptions C44_calls_partial.
Print Assumptions C44_toplevel_partial.
Print Assumptions C44_reachable.
Print Assumptions C80_arguments_partial.

Lemma no_builtins : forall f b, none f = Some b -> tame b.
Proof. discriminate. Qed.
Lemma no_method_builtins : forall x m b, no_methods x m = Some b -> tame b.
Proof. discriminate. Qed.

(** a = [[1], 'x'] ; b = a ; a += [2] ; a += a *)
Definition st39 := after [SAssign (B "a") (EArr [EArr [ENum 1]; EStr (B "x")])].
Example C39_case :
  idle st39 /\ well_formed st39 /\ nth_error (heap st39) disabler_id = Some ODisabler /\
  has_value st39 (B "a") (VArr [VArr [VNum 1]; VStr (B "x")]) /\
  Forall (quiet none) [EArr [ENum 2]; EVar (B "a")] /\
  exists s' o, evaluates none no_methods
    (NBlock (SAssign (B "b") (EVar (B "a")) :: map (SPlusAssign (B "a")) [EArr [ENum 2]; EVar (B "a")])) st39 s' o /\
    has_value s' (B "a") (VArr [VArr [VNum 1]; VStr (B "x"); VNum 2; VArr [VNum 1]; VStr (B "x"); VNum 2]).
Proof.
  split; [now split|]. split.
  { apply (C44_reachable none no_methods no_builtins no_method_builtins [SAssign (B "a") (EArr [EArr [ENum 1]; EStr (B "x")])] st39 0).
    exists 20. vm_compute. reflexivity. }
  split; [reflexivity|]. split.
  { eexists. split; [vm_compute; reflexivity|]. eapply dn_arr; [vm_compute; reflexivity|].
    constructor; [eapply dn_arr; [vm_compute; reflexivity|]; constructor; [now apply dn_num|constructor]|].
    constructor; [now apply dn_str|constructor]. }
  split; [repeat constructor|]. do 2 eexists. split; [exists 20; vm_compute; reflexivity|].
  eexists. split; [vm_compute; reflexivity|]. eapply dn_arr; [vm_compute; reflexivity|].
  assert (X : forall P Q : Prop, P -> Q -> P /\ Q) by auto.
  repeat (constructor; [first [now apply dn_num|now apply dn_str|eapply dn_arr; [vm_compute; reflexivity|constructor; [now apply dn_num|constructor]]]|]).
  constructor.
Qed.

(** But other variables that share the array do change: c = [a] ; a += [2] changes c, and so does
    set_variable('c', a). *)
Definition shared := after [SAssign (B "a") (EArr [ENum 1]); SAssign (B "c") (EArr [EVar (B "a")]);
  SExpr (ECall (B "set_variable") [EStr (B "d"); EVar (B "a")])].
Theorem C79_arrays_refuted : exists s' o,
  evaluates none no_methods (NStmt (SPlusAssign (B "a") (EArr [ENum 2]))) shared s' o /\
  has_value shared (B "c") (VArr [VArr [VNum 1]]) /\ has_value s' (B "c") (VArr [VArr [VNum 1; VNum 2]]) /\
  has_value shared (B "d") (VArr [VNum 1]) /\ has_value s' (B "d") (VArr [VNum 1; VNum 2]).
Proof.
  do 2 eexists. split; [exists 20; vm_compute; reflexivity|].
  repeat split; (eexists; split; [vm_compute; reflexivity|]);
    repeat first [now apply dn_num|eapply dn_arr; [vm_compute; reflexivity|]|constructor].
Qed.
Print Assumptions C79_arrays_refuted.
Example C79_case : idle shared /\ has_value (after [SAssign (B "x") (ENum 1); SAssign (B "y") (EVar (B "x"))]) (B "y") (VNum 1) /\
  exists s' o, evaluates none no_methods (NStmt (SPlusAssign (B "x") (ENum 2)))
    (after [SAssign (B "x") (ENum 1); SAssign (B "y") (EVar (B "x"))]) s' o /\ has_value s' (B "x") (VNum 3).
Proof.
  split; [now split|]. split; [eexists; split; [vm_compute; reflexivity|]; now apply dn_num|].
  do 2 eexists. split; [exists 20; vm_compute; reflexivity|]. eexists. split; [vm_compute; reflexivity|]. now apply dn_num.
Qed.

(** x = 1 ; func f(y) x = y ; z = x ; return z endfunc -- then f(7) is 7 and x still 1 *)
Definition prog44 := [SAssign (B "x") (ENum 1);
  SFunc (B "f") [B "y"] true [SAssign (B "x") (EVar (B "y")); SAssign (B "z") (EVar (B "x")); SReturn (EVar (B "z"))]].
Example C44_case :
  well_formed (after prog44) /\ own_scopes (after prog44) /\ cur (after prog44) = 0 /\ plain_functions none (after prog44) /\
  pure none (ECall (B "f") [ENum 7]) /\ has_value (after prog44) (B "x") (VNum 1) /\ undefined (after prog44) (B "z") /\
  exists s' o, evaluates none no_methods (NExpr (ECall (B "f") [ENum 7])) (after prog44) s' o /\
    nth_error (heap s') o = Some (ONum 7).
Proof.
  assert (H : evaluates none no_methods (NBlock prog44) start_state (after prog44)
     (match run none no_methods 60 prog44 with Ok _ o => o | _ => 0 end)) by (exists 60; vm_compute; reflexivity).
  apply (C44_reachable none no_methods no_builtins no_method_builtins) in H. destruct H as (W & O & C & _ & P).
  split; [exact W|]. split; [exact O|]. split; [exact C|].
  split; [apply P; repeat constructor|]. split.
  { constructor; try discriminate; [auto|repeat constructor]. }
  split; [eexists; split; [vm_compute; reflexivity|]; now apply dn_num|]. split; [vm_compute; reflexivity|].
  do 2 eexists. split; [exists 20; vm_compute; reflexivity|]. vm_compute. reflexivity.
Qed.
(** y = [1] ; func f() y += [2] endfunc ; f() -- changes the caller's y *)
Definition plus_prog := [SAssign (B "y") (EArr [ENum 1]); SFunc (B "f") [] false [SPlusAssign (B "y") (EArr [ENum 2])]].
Theorem C44_plusassign_refuted : exists s' o,
  evaluates none no_methods (NExpr (ECall (B "f") [])) (after plus_prog) s' o /\
  has_value (after plus_prog) (B "y") (VArr [VNum 1]) /\ has_value s' (B "y") (VArr [VNum 1; VNum 2]).
Proof.
  do 2 eexists. split; [exists 20; vm_compute; reflexivity|].
  split; (eexists; split; [vm_compute; reflexivity|]);
    repeat first [now apply dn_num|eapply dn_arr; [vm_compute; reflexivity|]|constructor].
Qed.
Print Assumptions C44_plusassign_refuted.
Example C80_case :
  let s := after prog44 in
  exists fo st s1 vals, get_variable s (B "f") = Some fo /\
  nth_error (heap s) fo = Some (OFunc [B "y"] true
    [SAssign (B "x") (EVar (B "y")); SAssign (B "z") (EVar (B "x")); SReturn (EVar (B "z"))] st) /\
  user_call none (B "f") /\ quiet none (EArith ArAdd (ENum 3) (ENum 4)) /\
  arguments none no_methods [fun _ => true] [EArith ArAdd (ENum 3) (ENum 4)] s s1 vals.
Proof.
  do 4 eexists. split; [vm_compute; reflexivity|]. split; [vm_compute; reflexivity|].
  split; [split; [cbn; intuition discriminate|reflexivity]|]. split; [repeat constructor|].
  eapply arguments_cons; [exists 9; vm_compute; reflexivity| |constructor].
  split; [reflexivity|]. exists (VNum 7), (ONum 7). repeat split; try discriminate; [now apply dn_num|intros X; inversion X].
Qed.
(** func f(a, b) return a endfunc ; func g(x, y) return x endfunc ; func h(x) return x endfunc --
    f(1, g(5, 6)) is 5, f(h(1), 2) fails and f(1, h(2)) aborts the process *)
Definition nested := after [SFunc (B "f") [B "a"; B "b"] true [SReturn (EVar (B "a"))];
  SFunc (B "g") [B "x"; B "y"] true [SReturn (EVar (B "x"))];
  SFunc (B "h") [B "x"] true [SReturn (EVar (B "x"))]].
Theorem C80_nested_call_refuted :
  (exists s' o, evaluates none no_methods (NExpr (ECall (B "f") [ENum 1; ECall (B "g") [ENum 5; ENum 6]])) nested s' o /\
     nth_error (heap s') o = Some (ONum 5)) /\
  (exists s', errs none no_methods (NExpr (ECall (B "f") [ECall (B "h") [ENum 1]; ENum 2])) nested s') /\
  crashes none no_methods (NExpr (ECall (B "f") [ENum 1; ECall (B "h") [ENum 2]])) nested.
Proof.
  split; [|split].
  - do 2 eexists. split; [exists 20; vm_compute; reflexivity|]. vm_compute. reflexivity.
  - eexists. exists 20. vm_compute. reflexivity.
  - exists 20. vm_compute. reflexivity.
Qed.
Print Assumptions C80_nested_call_refuted.
