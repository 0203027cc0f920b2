(** Lemmas about the arguments of calls. *)
From Coq Require Import NArith Lia.
From Verif Require Import Base M_Types S_Types L_Types.

(** ** Objects *)
Section ObjInd.
Variable P : obj -> Prop.
Hypothesis Hn : P ONull.
Hypothesis Hd : P ODisabler.
Hypothesis Ha : forall l, Forall P l -> P (OArray l).
Hypothesis Hdict : forall d, Forall (fun kv => P (snd kv)) d -> P (ODict d).
Hypothesis Ho : forall k id, P (OOther k id).
Fixpoint obj_ind' (o : obj) : P o :=
  match o with
  | ONull => Hn
  | ODisabler => Hd
  | OArray l => Ha l ((fix go (l : list obj) : Forall P l :=
      match l with [] => Forall_nil _ | x :: l => Forall_cons _ (obj_ind' x) (go l) end) l)
  | ODict d => Hdict d ((fix go (d : list (bytes * obj)) : Forall (fun kv => P (snd kv)) d :=
      match d with [] => Forall_nil _ | x :: d => Forall_cons _ (obj_ind' (snd x)) (go d) end) d)
  | OOther k id => Ho k id
  end.
End ObjInd.

Lemma flat_array l : flat (OArray l) = concat (map flat l).
Proof. cbn [flat]. induction l as [|x l IH]; cbn [map concat]; [reflexivity|]. now rewrite <- IH. Qed.
Lemma flat_leaves v : leaves v (flat v).
Proof.
  induction v using obj_ind'; try (apply lv_one; intros; discriminate).
  rewrite flat_array. apply lv_array. induction H; constructor; auto.
Qed.
Lemma leaves_flat v : forall l, leaves v l -> l = flat v.
Proof.
  induction v using obj_ind'; intros r R; inversion R; subst; try reflexivity; try congruence.
  rewrite flat_array. f_equal. clear R. revert H. induction H1; intros F; [reflexivity|].
  inversion F; subst. cbn [map]. f_equal; auto.
Qed.
Lemma not_array_flat v : (forall l, v <> OArray l) -> flat v = [v].
Proof. destruct v; intros H; try reflexivity. now destruct (H l). Qed.

Lemma proper_wf v : proper v -> wellformed v.
Proof.
  induction v using obj_ind'; intros P; inversion P; subst; constructor; auto.
  - rewrite Forall_forall in *. auto.
  - rewrite Forall_forall in *. auto.
Qed.
Lemma proper_flat v : proper v -> Forall proper (flat v).
Proof.
  induction v using obj_ind'; intros P; try (cbn [flat]; constructor; [exact P|constructor]).
  rewrite flat_array. inversion P; subst. clear P. induction H; cbn [map concat]; [constructor|].
  inversion H1; subst. apply Forall_app. split; auto.
Qed.
Lemma proper_no_disabler v : proper v -> is_disabler v = false.
Proof. now destruct 1. Qed.
Lemma proper_clean v : proper v ->
  match v with ODisabler => true | OArray _ => existsb is_disabler (flat v) | _ => false end = false.
Proof.
  intros P. destruct v; try reflexivity; [inversion P|]. assert (F := proper_flat _ P).
  induction F as [|x l' Hx _ IH]; [reflexivity|]. cbn [existsb]. now rewrite (proper_no_disabler _ Hx), IH.
Qed.
Lemma proper_meets s : forall v, proper v -> ~ meets s v.
Proof.
  induction s; intros v P M; cbn [meets] in M; try tauto.
  - destruct M as [_ ->]. inversion P.
  - destruct M as [->|(l & -> & E)]; inversion P; subst. apply Exists_exists in E. destruct E as (x & Hx & E).
    rewrite Forall_forall in *. apply (IHs x); auto.
  - destruct M as [->|(l & -> & E)]; inversion P; subst. apply Exists_exists in E. destruct E as (x & Hx & E).
    rewrite Forall_forall in *. apply (IHs (snd x)); auto; now apply H0.
  - destruct M; [now apply (IHs1 v)|now apply (IHs2 v)].
Qed.
Lemma proper_void s : forall v, proper v -> ~ void_in_union s v.
Proof.
  induction s; intros v P M; cbn [void_in_union] in M; try tauto.
  - destruct M as (l & -> & E); inversion P; subst. apply Exists_exists in E. destruct E as (x & Hx & E).
    rewrite Forall_forall in *. apply (IHs x); auto.
  - destruct M as (l & -> & E); inversion P; subst. apply Exists_exists in E. destruct E as (x & Hx & E).
    rewrite Forall_forall in *. apply (IHs (snd x)); auto; now apply H0.
  - destruct M as [[-> _]|[M|M]]; [inversion P|now apply (IHs1 v)|now apply (IHs2 v)].
Qed.

(** ** Tags *)
Lemma compound_simple s : compound s <-> simple s = false.
Proof.
  induction s; cbn; try tauto; try (split; [tauto|discriminate]).
  rewrite Bool.andb_false_iff. tauto.
Qed.
Lemma simple_compound s : ~ compound s <-> simple s = true.
Proof. rewrite compound_simple. destruct (simple s); split; congruence. Qed.

Lemma has_all_tc t k : has_all t (tc k) = N.testbit t 63 && N.testbit t (k - 1).
Proof.
  unfold has_all. destruct (N.eqb_spec (N.land t (tc k)) (tc k)) as [E|E].
  - assert (F : forall i, N.testbit (N.land t (tc k)) i = N.testbit (tc k) i) by now rewrite E.
    assert (F1 := F 63%N). assert (F2 := F (k - 1)%N). rewrite N.land_spec, testbit_tc in F1, F2.
    rewrite N.eqb_refl in F1, F2. cbn in F1. rewrite Bool.orb_true_r in F2. rewrite Bool.andb_true_r in F1, F2. now rewrite F1, F2.
  - destruct (N.testbit t 63) eqn:A, (N.testbit t (k - 1)) eqn:C; try reflexivity.
    destruct E. apply N.bits_inj. intros i. rewrite N.land_spec, testbit_tc.
    destruct (N.eqb_spec 63 i) as [<-|]; [now rewrite A|]. destruct (N.eqb_spec (k - 1) i) as [<-|]; [now rewrite C|]. apply Bool.andb_false_r.
Qed.

Definition few (tb : table) : Prop := length tb <= 16.
(** What is known of the bits of a tag. *)
Inductive tag_shape (s : syntax) (t : N) : Prop :=
| ts_raw k : (1 <= k <= 32)%N -> s = SName k -> t = k -> tag_shape s t
| ts_simple : simple s = true -> simple_bits s t -> tag_shape s t
| ts_complex idx ct : simple s = false -> (idx < 16)%N -> (ct < 2)%N -> t = complex_type idx ct -> tag_shape s t.
Lemma shape tb t s : few tb -> named s -> stands_for tb t s -> tag_shape s t.
Proof.
  intros F N [(before & made & later & E & ->)|(k & K & -> & ->)]; [|now apply ts_raw with (k := k)].
  destruct (simple s) eqn:P.
  - destruct (simple_parse s before N P) as (t1 & E1 & H). rewrite E in E1. injection E1 as -> ->. now apply ts_simple.
  - unfold few in F. rewrite app_length in F.
    assert (A : exists idx ct, t = complex_type (N.of_nat idx) ct /\ (ct < 2)%N /\ idx < length made).
    { destruct s; cbn in P; try discriminate; cbn [parse_type] in E.
      - destruct (parse_type s before) as [u tu]. injection E as <- <-. eexists _, _. split; [reflexivity|]. rewrite app_length. cbn. split; [reflexivity|lia].
      - destruct (parse_type s before) as [u tu]. injection E as <- <-. eexists _, _. split; [reflexivity|]. rewrite app_length. cbn. split; [reflexivity|lia].
      - destruct (parse_type s1 before) as [u1 tu1] eqn:P1, (parse_type s2 tu1) as [u2 tu2] eqn:P2. destruct N as [N1 N2].
        rewrite (parse_complex _ _ _ _ N1 P1), (parse_complex _ _ _ _ N2 P2) in E.
        replace (negb (simple s2) || negb (simple s1)) with true in E by (now destruct (simple s1), (simple s2)).
        injection E as <- <-. eexists _, _. split; [reflexivity|]. rewrite app_length. cbn. split; [reflexivity|lia]. }
    destruct A as (idx & ct & -> & C & L). apply (ts_complex _ _ (N.of_nat idx) ct); auto; lia.
Qed.
Lemma raw_bits k i : (k <= 32)%N -> (6 <= i)%N -> N.testbit k i = false.
Proof. intros K I. apply (small_bits k 6); [|assumption]. apply N.le_lt_trans with (1 := K). now vm_compute. Qed.
Lemma complex_bits_at idx ct i : (idx < 16)%N -> (ct < 2)%N -> N.testbit (complex_type idx ct) i = true -> (i < 4 \/ i = 48 \/ i = 60 \/ i = 63)%N.
Proof.
  intros L C. rewrite complex_bits. destruct (N.ltb_spec i 4); [auto|].
  rewrite (small_bits idx 4) by assumption. cbn [orb].
  destruct (N.ltb_spec i 48); [rewrite N.shiftl_spec_low by assumption|rewrite N.shiftl_spec_high by lia].
  - cbn [orb]. destruct (N.eqb_spec 60 i), (N.eqb_spec 63 i); intros; try discriminate; auto.
  - destruct (N.eqb_spec i 48); [auto|]. rewrite (small_bits ct 1) by (assumption || lia). cbn [orb].
    destruct (N.eqb_spec 60 i), (N.eqb_spec 63 i); intros; try discriminate; auto.
Qed.
Lemma shape_no_bit s t i : tag_shape s t -> (i = 61 \/ i = 62)%N -> N.testbit t i = false.
Proof.
  intros [k K _ ->|P H|idx ct _ L C ->] I.
  - apply raw_bits; lia.
  - rewrite H. destruct I as [->| ->]; reflexivity.
  - destruct (N.testbit _ i) eqn:E; [|reflexivity]. apply (complex_bits_at _ _ _ L C) in E. lia.
Qed.
Lemma shape_array s t k : tag_shape s t -> (1 <= k <= 32)%N -> (5 <= k)%N ->
  (t =? k)%N || has_all t (tc k) = simple s && kinds s k.
Proof.
  intros T K K5. rewrite has_all_tc. destruct T as [j J -> ->|P H|idx ct P L C ->].
  - rewrite (raw_bits j 63) by lia. cbn [andb simple kinds]. rewrite Bool.orb_false_r. apply N.eqb_sym.
  - rewrite P, !H. cbn [andb]. replace (k - 1 + 1)%N with k by lia. change (63 =? 63)%N with true. cbn [orb andb].
    destruct (N.eqb_spec 63 (k - 1)); [lia|]. destruct (N.eqb_spec 59 (k - 1)); [lia|]. destruct (N.ltb_spec (k - 1) 32); [|lia]. cbn [andb orb].
    destruct (N.eqb_spec t k) as [->|]; [|reflexivity].
    assert (E := H 63%N). rewrite raw_bits in E by lia. discriminate.
  - rewrite P. cbn [andb]. destruct (N.eqb_spec (complex_type idx ct) k) as [E|_].
    + assert (F : N.testbit (complex_type idx ct) 63 = false) by (rewrite E; apply raw_bits; lia).
      rewrite complex_bits in F. cbn in F. now rewrite !Bool.orb_true_r in F.
    + cbn [orb]. destruct (N.testbit (complex_type idx ct) (k - 1)) eqn:E; [|apply Bool.andb_false_r].
      apply (complex_bits_at _ _ _ L C) in E. lia.
Qed.
Lemma shape_ok s t : tag_shape s t -> has t TAG || (t <? obj_type_count)%N = true.
Proof.
  intros [k K _ ->|P H|idx ct _ L C ->].
  - destruct (N.ltb_spec k obj_type_count) as [_|X]; [apply Bool.orb_true_r|]. unfold obj_type_count in X. lia.
  - unfold TAG. rewrite has_bit, H. reflexivity.
  - now rewrite complex_is_tagged.
Qed.
Lemma clear_bit t n : N.testbit t n = false -> N.ldiff t (2 ^ n) = t.
Proof.
  intros H. apply N.bits_inj. intros i. rewrite N.ldiff_spec, N.pow2_bits_eqb.
  destruct (N.eqb_spec n i) as [<-|]; [now rewrite H|apply Bool.andb_true_r].
Qed.
Lemma set_clear_bit t n : N.testbit t n = false -> N.ldiff (N.lor (2 ^ n) t) (2 ^ n) = t.
Proof.
  intros H. apply N.bits_inj. intros i. rewrite N.ldiff_spec, N.lor_spec, N.pow2_bits_eqb.
  destruct (N.eqb_spec n i) as [<-|]; [now rewrite H|]. cbn. apply Bool.andb_true_r.
Qed.

(** ** One argument *)
Section Args.
Variable fuel : nat.
Variable tb : table.
Variable immune : bool.
Hypothesis FEW : few tb.
Hypothesis FUEL : length tb < fuel.

Lemma few_N : (N.of_nat (length tb) <= 2 ^ 32)%N.
Proof. unfold few in FEW. apply N.le_trans with 16%N; [lia|]. now vm_compute. Qed.

Lemma check_decides s t v : named s -> stands_for tb t s -> proper v -> decides (typecheck fuel tb v t) (member s v).
Proof.
  intros N S P. apply (stands_decides tb t s N S few_N fuel v FUEL (proper_wf _ P)); [now apply proper_void|now apply proper_meets].
Qed.

Definition verdict (r : outcome obj) (p : top) (v : obj) : Prop :=
  (exists w, r = ROk w /\ takes p v w) \/ (r = RErr /\ forall w, ~ takes p v w).

Lemma file_kind v id : v = OOther 5 id -> kind v = 5%N.
Proof. now intros ->. Qed.
Lemma kind_file v : proper v -> kind v = 5%N -> exists id, v = OOther 5 id.
Proof. intros P K. destruct P; cbn in K; try discriminate. subst. eauto. Qed.

Lemma plain_arg s t v : named s -> stands_for tb t s -> proper v -> verdict (typecheck_function_arg fuel tb immune v t) (TPlain s) v.
Proof.
  intros N S P. assert (T := shape _ _ _ FEW N S). unfold typecheck_function_arg. rewrite (proper_clean _ P), Bool.andb_false_r.
  unfold LISTIFY. rewrite has_bit, (shape_no_bit _ _ _ T) by auto. rewrite clear_bit by (apply (shape_no_bit _ _ _ T); auto).
  rewrite (shape_ok _ _ T). cbn [negb].
  assert (FK : ((t =? k_file)%N || has_all t (tc k_file)) = simple s && kinds s 5). { apply (shape_array s t 5 T); lia. }
  rewrite FK.
  assert (NF : (forall f, ~ one_file s v f) -> verdict (of_res (typecheck fuel tb v t) v) (TPlain s) v).
  { intros NO. destruct (check_decides s t v N S P) as [[-> M]|[-> M]]; cbn [of_res].
    - left. exists v. split; [reflexivity|now constructor].
    - right. split; [reflexivity|]. intros w W. inversion W; subst; auto. now apply (NO w). }
  destruct (simple s && kinds s 5) eqn:SK.
  2: { apply NF. intros f ((id & ->) & -> & M & NC). apply simple_compound in NC. rewrite NC in SK. cbn [andb] in SK.
       inversion P; subst. inversion H0; subst. apply (member_simple s _ NC (proper_wf _ H2)) in M; [|discriminate].
       cbn [kind] in M. destruct M as [M|M]; [congruence|discriminate]. }
  apply Bool.andb_true_iff in SK. destruct SK as [SS SK].
  destruct v as [| |l| |]; try (apply NF; intros f (_ & E & _); discriminate).
  destruct l as [|x [|y l]]; try (apply NF; intros f (_ & E & _); discriminate).
  destruct (N.eqb_spec (get_obj_type x) k_file) as [E|E].
  2: { apply NF. intros f ((id & ->) & X & _). injection X as ->. now apply E. }
  rewrite kind_eq in E. inversion P; subst. inversion H0; subst. destruct (kind_file _ H2 E) as (id & ->).
  assert (M : member s (OOther 5 id)). { apply (member_simple s _ SS (proper_wf _ H2)); [discriminate|]. now left. }
  destruct (check_decides s t (OOther 5 id) N S H2) as [[-> _]|[_ NM]]; [|contradiction]. cbn [of_res].
  left. eexists. split; [reflexivity|]. apply tk_file. split; [eauto|]. split; [reflexivity|]. split; [exact M|now apply simple_compound].
Qed.

Lemma flat_check s t l : named s -> stands_for tb t s -> Forall proper l ->
  decides (all_yes (map (fun x => typecheck fuel tb x t) l)) (Forall (member s) l).
Proof. intros N S F. apply all_yes_decides. eapply Forall_impl; [|exact F]. intros a. now apply check_decides. Qed.

Lemma listify_arg s t v : named s -> stands_for tb t s -> proper v -> verdict (typecheck_function_arg fuel tb immune v (N.lor LISTIFY t)) (TListify s) v.
Proof.
  intros N S P. assert (T := shape _ _ _ FEW N S). unfold typecheck_function_arg. rewrite (proper_clean _ P), Bool.andb_false_r.
  unfold LISTIFY. rewrite has_bit, N.lor_spec, N.pow2_bits_true. cbn [orb].
  rewrite set_clear_bit by (apply (shape_no_bit _ _ _ T); auto).
  rewrite (shape_ok _ _ T). cbn [negb].
  assert (D := flat_check s t (flat v) N S (proper_flat _ P)).
  assert (W : forall w, takes (TListify s) v w -> Forall (member s) (flat v)).
  { intros w W. inversion W; subst. match goal with X : leaves v _ |- _ => apply leaves_flat in X; now subst end. }
  destruct v as [| |l|d|k id]; try (now inversion P).
  - destruct D as [[-> D]|[-> D]]; cbn [of_res].
    + left. eexists. split; [reflexivity|]. apply tk_listify; [apply flat_leaves|exact D].
    + right. split; [reflexivity|]. intros w X. exact (D (W w X)).
  - cbn [flat map all_yes] in D. cbn [flat] in W. destruct (typecheck fuel tb (ODict d) t); destruct D as [[E D]|[E D]]; try discriminate; cbn [of_res].
    + left. eexists. split; [reflexivity|]. apply tk_listify; [apply (flat_leaves (ODict d))|exact D].
    + right. split; [reflexivity|]. intros w X. exact (D (W w X)).
  - cbn [flat map all_yes] in D. cbn [flat] in W. destruct (typecheck fuel tb (OOther k id) t); destruct D as [[E D]|[E D]]; try discriminate; cbn [of_res].
    + left. eexists. split; [reflexivity|]. apply tk_listify; [apply (flat_leaves (OOther k id))|exact D].
    + right. split; [reflexivity|]. intros w X. exact (D (W w X)).
Qed.

Lemma one_arg p t v : param_tag tb p t -> proper v -> verdict (typecheck_function_arg fuel tb immune v t) p v.
Proof.
  intros T P. destruct p; cbn [param_tag] in T; try contradiction.
  - now apply plain_arg.
  - destruct T as (N & u & S & ->). now apply listify_arg.
Qed.
Lemma takes_fun p v w w' : takes p v w -> takes p v w' -> w = w'.
Proof.
  intros T T'. destruct T; inversion T'; subst; try reflexivity.
  - now destruct (H0 w').
  - match goal with X : forall f, ~ one_file _ _ f |- _ => now destruct (X f) end.
  - repeat match goal with X : one_file _ _ _ |- _ => destruct X as (_ & X & _) end. congruence.
  - f_equal. apply leaves_flat in H. match goal with X : leaves v _ |- _ => apply leaves_flat in X; congruence end.
Qed.
Lemma arg_iff p t v w : param_tag tb p t -> proper v -> typecheck_function_arg fuel tb immune v t = ROk w <-> takes p v w.
Proof.
  intros T P. destruct (one_arg p t v T P) as [(x & -> & X)|[-> X]]; split; intros H.
  - now injection H as ->. - f_equal. now apply (takes_fun p v). - discriminate. - now destruct (X w).
Qed.
Definition good {A} (r : outcome A) : Prop := (exists a, r = ROk a) \/ r = RErr.
Lemma arg_good p t v : param_tag tb p t -> proper v -> good (typecheck_function_arg fuel tb immune v t).
Proof. intros T P. destruct (one_arg p t v T P) as [(x & -> & X)|[-> X]]; [left; eauto|now right]. Qed.

(** ** Positional arguments *)
Definition proper_arg (a : arg) : Prop := forall v, snd a = Some v -> proper v.
Lemma param_no_glob p t : param_tag tb p t -> has t GLOB = false.
Proof.
  intros T. unfold GLOB. rewrite has_bit. destruct p; cbn [param_tag] in T; try contradiction.
  - destruct T as [N S]. apply (shape_no_bit s t 61); [now apply (shape tb)|now left].
  - destruct T as (N & u & S & ->). unfold LISTIFY. rewrite N.lor_spec, N.pow2_bits_eqb. cbn [N.eqb Pos.eqb orb].
    apply (shape_no_bit s u 61); [now apply (shape tb)|now left].
Qed.

Lemma good_bind {A C} (x : outcome A) (f : A -> outcome C) : good x -> (forall a, x = ROk a -> good (f a)) -> good (bind x f).
Proof. intros [[a ->]| ->] H; cbn [bind]; [now apply H|now right]. Qed.
Lemma bind_ok {A C} (x : outcome A) (f : A -> outcome C) c : bind x f = ROk c <-> exists a, x = ROk a /\ f a = ROk c.
Proof.
  destruct x; cbn [bind]; split; intros H; try discriminate; try (destruct H as (? & ? & _); discriminate).
  - eauto. - destruct H as (b & E & H). now injection E as ->.
Qed.

Lemma positional_iff ps tags tail : Forall2 (param_tag tb) ps tags -> forall args acc r, Forall proper_arg args ->
  positional_loop fuel tb immune (tags ++ tail) args acc = ROk r <->
  exists req seen args', args = positional req ++ args' /\ takes_all ps req seen
    /\ positional_loop fuel tb immune tail args' (acc ++ seen) = ROk r.
Proof.
  induction 1 as [|p t ps tags T F IH]; intros args acc r PA.
  - cbn [app]. split.
    + intros E. exists [], [], args. rewrite app_nil_r. repeat split; auto. constructor.
    + intros (req & seen & args' & -> & TA & E). inversion TA; subst. cbn [positional map app]. now rewrite app_nil_r in E.
  - cbn [app positional_loop]. rewrite (param_no_glob _ _ T). destruct args as [|[[k|] ov] args].
    + split; [discriminate|]. intros (req & seen & args' & E & TA & _). inversion TA; subst. discriminate.
    + split; [discriminate|]. intros (req & seen & args' & E & TA & _). inversion TA; subst. discriminate.
    + inversion PA as [|? ? PV PA']; subst. rewrite bind_ok. split.
      * intros (v & EV & E). destruct ov as [v'|]; [|discriminate]. injection EV as ->. rewrite bind_ok in E. destruct E as (w & EW & E).
        apply (arg_iff p t v w T (PV v eq_refl)) in EW. apply (IH args (acc ++ [w]) r PA') in E.
        destruct E as (req & seen & args' & -> & TA & E). exists (v :: req), (w :: seen), args'. split; [reflexivity|]. split; [now constructor|].
        now rewrite <- app_assoc in E.
      * intros (req & seen & args' & E & TA & R). inversion TA; subst. injection E as -> ->. exists v. split; [reflexivity|]. rewrite bind_ok. exists w.
        split; [now apply (arg_iff p t v w T (PV v eq_refl))|]. apply IH; [exact PA'|]. exists vs, ws, args'. rewrite <- app_assoc. auto.
Qed.
Lemma positional_good ps tags tail : Forall2 (param_tag tb) ps tags ->
  (forall args acc, Forall proper_arg args -> good (positional_loop fuel tb immune tail args acc)) ->
  forall args acc, Forall proper_arg args -> good (positional_loop fuel tb immune (tags ++ tail) args acc).
Proof.
  intros F G. induction F as [|p t ps tags T F IH]; intros args acc PA; [now apply G|].
  cbn [app positional_loop]. rewrite (param_no_glob _ _ T). destruct args as [|[[k|] ov] args]; [now right|now right|].
  inversion PA as [|? ? PV PA']; subst. apply good_bind; [destruct ov; [left; eexists; reflexivity|now right]|]. intros v E.
  destruct ov; [|discriminate]. injection E as ->. apply good_bind; [apply (arg_good p t v T (PV v eq_refl))|]. intros w _. now apply IH.
Qed.

(** ** The glob parameter *)
Definition no_positional (args : list arg) : Prop := match args with (None, _) :: _ => False | _ => True end.
Section Rest.
Variable s : syntax.
Variable t : N.
Hypothesis NM : named s.
Hypothesis NC : ~ compound s.
Hypothesis ST : stands_for tb t s.

Lemma rest_test l : proper (OArray l) ->
  ((t =? tc_any)%N || (t =? k_array)%N || has_all t (tc k_array)) = true <-> member s (OArray l).
Proof.
  intros P. assert (T := shape _ _ _ FEW NM ST). assert (SS := proj1 (simple_compound s) NC).
  assert (A : ((t =? k_array)%N || has_all t (tc k_array)) = simple s && kinds s 9). { apply (shape_array s t 9 T); lia. }
  rewrite <- Bool.orb_assoc, A, SS. cbn [andb].
  rewrite (member_simple s (OArray l) SS (proper_wf _ P)) by discriminate. cbn [kind].
  destruct (N.eqb_spec t tc_any) as [->|_]; cbn [orb].
  - split; [intros _|reflexivity]. left. rewrite SS in A. cbn [andb] in A. rewrite <- A. reflexivity.
  - split; [auto|intros [H|H]; [exact H|discriminate]].
Qed.

Lemma glob_iff args : forall acc r rest, Forall proper_arg args ->
  glob_loop fuel tb immune t args acc = ROk (r, rest) <->
  exists more ls, args = positional more ++ rest /\ Forall2 (takes_rest s) more ls /\ r = acc ++ concat ls /\ no_positional rest.
Proof.
  induction args as [|[[k|] ov] args IH]; intros acc r rest PA.
  - cbn [glob_loop]. split.
    + intros E. injection E as <- <-. exists [], []. repeat split; [constructor|symmetry; apply app_nil_r].
    + intros (more & ls & E & F & -> & _). destruct more; [|discriminate]. inversion F; subst. cbn in E. subst. cbn. now rewrite app_nil_r.
  - cbn [glob_loop]. split.
    + intros E. injection E as <- <-. exists [], []. repeat split; [constructor|symmetry; apply app_nil_r].
    + intros (more & ls & E & F & -> & _). destruct more; [|discriminate]. inversion F; subst. cbn in E. subst. cbn. now rewrite app_nil_r.
  - cbn [glob_loop]. inversion PA as [|? ? PV PA']; subst. rewrite bind_ok.
    assert (STEP : forall v l, proper v -> takes_rest s v l ->
      (if (get_obj_type v =? k_array)%N && negb ((t =? tc_any)%N || (t =? k_array)%N || has_all t (tc k_array))
       then bind (typecheck_function_arg fuel tb immune v (N.lor LISTIFY t)) (fun v => match v with OArray l => glob_loop fuel tb immune t args (acc ++ l) | _ => RAbort end)
       else bind (typecheck_function_arg fuel tb immune v t) (fun v => glob_loop fuel tb immune t args (acc ++ [v])))
      = glob_loop fuel tb immune t args (acc ++ l)).
    { intros v l P TR. inversion TR; subst.
      - rewrite kind_eq. cbn [kind]. change (9 =? k_array)%N with true.
        destruct ((t =? tc_any)%N || (t =? k_array)%N || has_all t (tc k_array)) eqn:A; [apply (rest_test _ P) in A; contradiction|]. cbn [andb negb].
        assert (X : typecheck_function_arg fuel tb immune (OArray a) (N.lor LISTIFY t) = ROk (OArray l)).
        { apply (arg_iff (TListify s)); [split; eauto|exact P|now apply tk_listify]. }
        now rewrite X.
      - assert (C : (get_obj_type v =? k_array)%N && negb ((t =? tc_any)%N || (t =? k_array)%N || has_all t (tc k_array)) = false).
        { destruct v; try (inversion P; reflexivity).
          - rewrite kind_eq. cbn [kind]. change (9 =? k_array)%N with true.
            rewrite (proj2 (rest_test _ P)); [reflexivity|]. now apply (H l).
          - rewrite kind_eq. cbn [kind]. inversion P; subst. destruct (N.eqb_spec k k_array) as [->|]; [|reflexivity]. exfalso. match goal with X : ~ In _ _ |- _ => apply X; cbn; auto end. }
        rewrite C. assert (X : typecheck_function_arg fuel tb immune v t = ROk w).
        { apply (arg_iff (TPlain s)); [now split|exact P|assumption]. }
        now rewrite X. }
    split.
    + intros (v & EV & E). destruct ov as [v'|]; [|discriminate]. injection EV as ->. specialize (PV v eq_refl).
      assert (EX : exists l, takes_rest s v l).
      { destruct ((get_obj_type v =? k_array)%N && negb ((t =? tc_any)%N || (t =? k_array)%N || has_all t (tc k_array))) eqn:C.
        - apply Bool.andb_true_iff in C. destruct C as [C1 C2]. apply N.eqb_eq in C1. rewrite kind_eq in C1.
          destruct v; cbn in C1; try discriminate; [|inversion PV; subst; exfalso; match goal with X : ~ In _ _ |- _ => apply X; cbn; auto end].
          apply bind_ok in E. destruct E as (w & EW & _). apply (arg_iff (TListify s)) in EW; [|split; eauto|exact PV].
          inversion EW; subst. exists l0. apply tr_array; auto. intros M. apply (rest_test _ PV) in M. now rewrite M in C2.
        - apply bind_ok in E. destruct E as (w & EW & _). apply (arg_iff (TPlain s)) in EW; [|now split|exact PV].
          exists [w]. apply tr_value; [|exact EW]. intros a ->. rewrite kind_eq in C. cbn [kind] in C. change (9 =? k_array)%N with true in C. cbn [andb] in C.
          apply (rest_test _ PV). now apply Bool.negb_false_iff in C. }
      destruct EX as (l & TR). rewrite (STEP v l PV TR) in E. apply (IH _ _ _ PA') in E. destruct E as (more & ls & -> & F & -> & NP).
      exists (v :: more), (l :: ls). repeat split; auto. cbn [concat]. now rewrite app_assoc.
    + intros (more & ls & E & F & -> & NP). destruct more as [|v more].
      { cbn in E. subst rest. destruct NP. }
      inversion F; subst. injection E as -> ->. exists v. split; [reflexivity|]. rewrite (STEP v y (PV v eq_refl) H1).
      apply (IH _ _ _ PA'). exists more, l'. cbn [concat]. rewrite app_assoc. auto.
Qed.
Lemma glob_good args : forall acc, Forall proper_arg args -> good (glob_loop fuel tb immune t args acc).
Proof.
  induction args as [|[[k|] ov] args IH]; intros acc PA; cbn [glob_loop]; [left; eexists; reflexivity|left; eexists; reflexivity|].
  inversion PA as [|? ? PV PA']; subst. apply good_bind; [destruct ov; [left; eexists; reflexivity|now right]|]. intros v E.
  destruct ov; [|discriminate]. injection E as ->. specialize (PV v eq_refl).
  destruct (_ && _).
  - apply good_bind; [apply (arg_good (TListify s)); [split; eauto|exact PV]|]. intros w W.
    apply (arg_iff (TListify s)) in W; [|split; eauto|exact PV]. inversion W; subst. now apply IH.
  - apply good_bind; [apply (arg_good (TPlain s)); [now split|exact PV]|]. intros w _. now apply IH.
Qed.
End Rest.

(** ** Optional arguments *)
Lemma forall2_len {A B} (R : A -> B -> Prop) l l' : Forall2 R l l' -> length l = length l'.
Proof. induction 1; cbn; congruence. Qed.
Lemma map_none {A B} (l : list A) : map (fun _ => @None B) l = repeat None (length l).
Proof. induction l; cbn; congruence. Qed.
Lemma optional_iff ps tags : Forall2 (param_tag tb) ps tags -> forall args acc r rest, Forall proper_arg args ->
  optional_loop fuel tb immune tags args acc = ROk (r, rest) <->
  exists more got, args = positional more ++ rest /\ length more <= length ps /\ takes_all (firstn (length more) ps) more got
    /\ r = acc ++ map Some got ++ repeat None (length ps - length more) /\ (length more = length ps \/ no_positional rest).
Proof.
  induction 1 as [|p t ps tags T F IH]; intros args acc r rest PA.
  - cbn [optional_loop]. split.
    + intros E. injection E as <- <-. exists [], []. cbn. rewrite app_nil_r. repeat split; auto. constructor.
    + intros (more & got & -> & L & TA & -> & _). cbn in L. destruct more; [|cbn in L; lia]. inversion TA; subst. cbn. now rewrite app_nil_r.
  - assert (LT : length ps = length tags) by (now apply forall2_len in F).
    cbn [optional_loop]. rewrite (param_no_glob _ _ T). destruct args as [|[[k|] ov] args].
    + split.
      * intros E. injection E as <- <-. exists [], []. cbn [length firstn map app]. rewrite Nat.sub_0_r, map_none. cbn [length]. rewrite <- LT.
        repeat split; auto; [lia|constructor|right; exact I].
      * intros (more & got & E & L & TA & -> & _). destruct more; [|discriminate]. cbn in E. subst rest. inversion TA; subst.
        cbn [length map app]. rewrite Nat.sub_0_r, map_none. cbn [length]. now rewrite <- LT.
    + split.
      * intros E. injection E as <- <-. exists [], []. cbn [length firstn map app]. rewrite Nat.sub_0_r, map_none. cbn [length]. rewrite <- LT.
        repeat split; auto; [lia|constructor|right; exact I].
      * intros (more & got & E & L & TA & -> & _). destruct more; [|discriminate]. cbn in E. subst rest. inversion TA; subst.
        cbn [length map app]. rewrite Nat.sub_0_r, map_none. cbn [length]. now rewrite <- LT.
    + inversion PA as [|? ? PV PA']; subst. rewrite bind_ok. split.
      * intros (v & EV & E). destruct ov as [v'|]; [|discriminate]. injection EV as ->. rewrite bind_ok in E. destruct E as (w & EW & E).
        apply (arg_iff p t v w T (PV v eq_refl)) in EW. apply (IH args _ _ _ PA') in E.
        destruct E as (more & got & -> & L & TA & -> & NP). exists (v :: more), (w :: got). split; [reflexivity|]. cbn [length firstn].
        split; [lia|]. split; [now constructor|]. split; [cbn [map]; now rewrite <- app_assoc|]. destruct NP; [left; lia|now right].
      * intros (more & got & E & L & TA & -> & NP). destruct more as [|v more].
        { cbn in E. subst rest. destruct NP as [NP|[]]. discriminate. }
        injection E as -> ->. cbn [length firstn] in *. inversion TA; subst. exists v. split; [reflexivity|]. rewrite bind_ok. exists w.
        split; [now apply (arg_iff p t v w T (PV v eq_refl))|]. apply IH; [exact PA'|]. exists more, ws. split; [reflexivity|]. split; [lia|].
        split; [assumption|]. split; [cbn [map]; now rewrite <- app_assoc|]. destruct NP; [left; lia|now right].
Qed.
Lemma optional_good ps tags : Forall2 (param_tag tb) ps tags -> forall args acc, Forall proper_arg args -> good (optional_loop fuel tb immune tags args acc).
Proof.
  induction 1 as [|p t ps tags T F IH]; intros args acc PA; cbn [optional_loop]; [left; eexists; reflexivity|].
  rewrite (param_no_glob _ _ T). destruct args as [|[[k|] ov] args]; [left; eexists; reflexivity|left; eexists; reflexivity|].
  inversion PA as [|? ? PV PA']; subst. apply good_bind; [destruct ov; [left; eexists; reflexivity|now right]|]. intros v E.
  destruct ov; [|discriminate]. injection E as ->. apply good_bind; [apply (arg_good p t v T (PV v eq_refl))|]. intros w _. now apply IH.
Qed.
End Args.

(** ** Keyword arguments *)
Lemma forall2_nth {A B} (R : A -> B -> Prop) l : forall l',
  Forall2 R l l' <-> (length l = length l' /\ forall i a b, nth_error l i = Some a -> nth_error l' i = Some b -> R a b).
Proof.
  induction l as [|x l IH]; intros [|y l']; split.
  - intros _. split; [reflexivity|]. intros [|i]; discriminate.
  - constructor.
  - intros F. inversion F.
  - intros [E _]. discriminate.
  - intros F. inversion F.
  - intros [E _]. discriminate.
  - intros F. inversion F; subst. apply IH in H4. destruct H4 as [L H]. split; [cbn; congruence|]. intros [|i] a b; cbn; intros E1 E2; [congruence|eauto].
  - intros [L H]. constructor; [now apply (H 0)|]. apply IH. split; [now injection L|]. intros i a b. apply (H (S i)).
Qed.
Lemma find_kw_spec kw l : forall j,
  match find_kw l kw j with
  | Some (i, k) => exists n, i = j + n /\ nth_error l n = Some k /\ kw = key k
  | None => forall k, In k l -> kw <> key k
  end.
Proof.
  induction l as [|x l IH]; intros j; cbn [find_kw]; [intros k []|].
  destruct (beqb_spec kw (key x)) as [E|E].
  - exists 0. repeat split; auto.
  - specialize (IH (S j)). destruct (find_kw l kw (S j)) as [[i k]|].
    + destruct IH as (n & -> & H & K). exists (S n). repeat split; auto. lia.
    + intros k [<-|I]; auto.
Qed.

Section Keywords.
Variable fuel : nat.
Variable tb : table.
Variable immune : bool.
Hypothesis FEW : few tb.
Hypothesis FUEL : length tb < fuel.
Variable decls : list (bytes * top * bool).
Notation name d := (fst (fst d)).
Hypothesis ND : NoDup (map (fun d : bytes * top * bool => name d) decls).
Definition kwrel (d : bytes * top * bool) (k : kwarg) : Prop :=
  key k = name d /\ param_tag tb (snd (fst d)) (ktype k) /\ required k = snd d.

Lemma name_unique i j d e : nth_error decls i = Some d -> nth_error decls j = Some e -> name d = name e -> i = j.
Proof.
  intros Hi Hj E. eapply (proj1 (NoDup_nth_error _) ND).
  - rewrite map_length. apply nth_error_Some. congruence.
  - rewrite !nth_error_map, Hi, Hj. cbn. now rewrite E.
Qed.

Lemma process_iff l kw v l' : Forall2 kwrel decls l -> proper v ->
  process_kwarg fuel tb immune l kw v = ROk l' <->
  exists i d k w, nth_error decls i = Some d /\ name d = kw /\ nth_error l i = Some k /\ kval k = None
    /\ takes (snd (fst d)) v w /\ l' = upd i (mkKw (key k) (ktype k) (required k) (Some w)) l.
Proof.
  intros F P. assert (F' := proj1 (forall2_nth kwrel decls l) F). destruct F' as [L F'].
  unfold process_kwarg. assert (S := find_kw_spec kw l 0). destruct (find_kw l kw 0) as [[i k]|].
  - destruct S as (n & -> & N & ->). cbn [plus].
    assert (Nd : exists d, nth_error decls n = Some d).
    { destruct (nth_error decls n) eqn:E; [eauto|]. apply nth_error_None in E. assert (n < length l) by (apply nth_error_Some; congruence). lia. }
    destruct Nd as (d & Nd). destruct (F' n d k Nd N) as (K1 & K2 & K3). rewrite bind_ok. split.
    + intros (w & E & X). destruct (kval k) eqn:KV; [discriminate|]. injection X as <-.
      exists n, d, k, w. repeat split; auto. now apply (arg_iff fuel tb immune FEW FUEL _ _ _ _ K2 P).
    + intros (j & e & k' & w & Ne & NE & Nk & KV & T & ->).
      assert (n = j). { apply (name_unique n j d e Nd Ne). congruence. } subst j.
      rewrite N in Nk. injection Nk as <-. rewrite Nd in Ne. injection Ne as <-.
      exists w. split; [now apply (arg_iff fuel tb immune FEW FUEL _ _ _ _ K2 P)|]. now rewrite KV.
  - split; [discriminate|]. intros (i & d & k & w & Nd & NE & Nk & _).
    destruct (F' i d k Nd Nk) as (K1 & _). destruct (S k (nth_error_In _ _ Nk)). congruence.
Qed.
Lemma process_good l kw v : Forall2 kwrel decls l -> proper v -> good (process_kwarg fuel tb immune l kw v).
Proof.
  intros F P. assert (F' := proj1 (forall2_nth kwrel decls l) F). destruct F' as [L F'].
  unfold process_kwarg. assert (S := find_kw_spec kw l 0). destruct (find_kw l kw 0) as [[i k]|]; [|now right].
  destruct S as (n & -> & N & ->). cbn [plus].
  assert (Nd : exists d, nth_error decls n = Some d).
  { destruct (nth_error decls n) eqn:E; [eauto|]. apply nth_error_None in E. assert (n < length l) by (apply nth_error_Some; congruence). lia. }
  destruct Nd as (d & Nd). destruct (F' n d k Nd N) as (K1 & K2 & K3).
  apply good_bind; [now apply (arg_good fuel tb immune FEW FUEL (snd (fst d)))|]. intros w _. destruct (kval k); [now right|left; eauto].
Qed.
Lemma upd_rel l i d k w : Forall2 kwrel decls l -> nth_error decls i = Some d -> nth_error l i = Some k ->
  Forall2 kwrel decls (upd i (mkKw (key k) (ktype k) (required k) (Some w)) l).
Proof.
  intros F Nd Nk. apply forall2_nth in F. destruct F as [L F]. apply forall2_nth. rewrite upd_length. split; [exact L|].
  intros j e k' Ne Nk'. destruct (Nat.eq_dec i j) as [<-|D].
  - rewrite nth_error_upd_same in Nk' by (apply nth_error_Some; congruence). injection Nk' as <-. rewrite Nd in Ne. injection Ne as <-. destruct (F i d k Nd Nk) as (A & B & C). now repeat split.
  - rewrite nth_error_upd_other in Nk' by congruence. now apply (F j).
Qed.

(** What the processing of the keyword arguments [given] does to the table. *)
Definition processed (given : list (bytes * obj)) (l l' : list kwarg) : Prop :=
  forall i d k, nth_error decls i = Some d -> nth_error l i = Some k -> exists k', nth_error l' i = Some k' /\
    ((~ In (name d) (map fst given) /\ kval k' = kval k)
     \/ exists v w, In (name d, v) given /\ takes (snd (fst d)) v w /\ kval k = None /\ kval k' = Some w).

Lemma dict_sound given : forall l l', Forall2 kwrel decls l -> Forall (fun kv => proper (snd kv)) given ->
  process_kwarg_dict fuel tb immune l given = ROk l' ->
  NoDup (map fst given) /\ incl (map fst given) (map (fun d : bytes * top * bool => name d) decls) /\ Forall2 kwrel decls l' /\ processed given l l'.
Proof.
  induction given as [|[kw v] given IH]; intros l l' F P E; cbn [process_kwarg_dict] in E.
  - injection E as <-. refine (conj (NoDup_nil _) (conj _ (conj F _))); [intros x []|]. intros i d k Nd Nk. exists k. split; [exact Nk|]. left. split; [intros []|reflexivity].
  - inversion P as [|? ? PV P']; subst. cbn [snd] in PV. apply bind_ok in E. destruct E as (l1 & E1 & E).
    apply (process_iff l kw v l1 F PV) in E1. destruct E1 as (i & d & k & w & Nd & NE & Nk & KV & T & ->).
    assert (IL : i < length l) by (apply nth_error_Some; congruence).
    destruct (IH _ _ (upd_rel _ _ _ _ w F Nd Nk) P' E) as (ND' & IN & F' & PR).
    assert (FR : ~ In kw (map fst given)).
    { destruct (PR i d _ Nd (nth_error_upd_same _ _ _ IL)) as (k' & Nk' & [[X _]|(v' & w' & _ & _ & X & _)]); [congruence|discriminate]. }
    refine (conj _ (conj _ (conj F' _))); cbn [map fst].
    + now constructor.
    + intros x [<-|X]; [|now apply IN]. rewrite <- NE. apply (in_map (fun d : bytes * top * bool => name d)). now apply nth_error_In in Nd.
    + intros j e k0 Ne Nk0. destruct (Nat.eq_dec i j) as [<-|D].
      * rewrite Nd in Ne. injection Ne as <-. rewrite Nk in Nk0. injection Nk0 as <-.
        destruct (PR i d _ Nd (nth_error_upd_same _ _ _ IL)) as (k' & Nk' & [[X Y]|(v' & w' & _ & _ & X & _)]); [|discriminate].
        exists k'. split; [exact Nk'|]. right. exists v, w. cbn [kval] in Y. repeat split; auto. left. now rewrite NE.
      * destruct (PR j e k0 Ne) as (k' & Nk' & C); [rewrite nth_error_upd_other by congruence; exact Nk0|].
        exists k'. split; [exact Nk'|]. destruct C as [[X Y]|(v' & w' & X & Y)].
        -- left. split; [|exact Y]. intros [Z|Z]; [|contradiction]. apply D. apply (name_unique i j d e Nd Ne). cbn [fst] in Z. congruence.
        -- right. exists v', w'. split; [now right|exact Y].
Qed.
Lemma dict_complete given : forall l, Forall2 kwrel decls l -> Forall (fun kv => proper (snd kv)) given ->
  NoDup (map fst given) -> incl (map fst given) (map (fun d : bytes * top * bool => name d) decls) ->
  (forall i d k v, nth_error decls i = Some d -> nth_error l i = Some k -> In (name d, v) given -> kval k = None /\ exists w, takes (snd (fst d)) v w) ->
  exists l', process_kwarg_dict fuel tb immune l given = ROk l'.
Proof.
  induction given as [|[kw v] given IH]; intros l F P N I H; cbn [process_kwarg_dict]; [eauto|].
  inversion P as [|? ? PV P']; subst. cbn [snd] in PV. inversion N as [|? ? NI N']; subst.
  assert (J : In kw (map (fun d : bytes * top * bool => name d) decls)) by (apply I; now left).
  apply in_map_iff in J. destruct J as (d & NE & Hd). apply In_nth_error in Hd. destruct Hd as (i & Nd).
  assert (Nk : exists k, nth_error l i = Some k).
  { destruct (nth_error l i) eqn:E; [eauto|]. apply nth_error_None in E. assert (i < length decls) by (apply nth_error_Some; congruence). apply forall2_len in F. lia. }
  destruct Nk as (k & Nk). destruct (H i d k v Nd Nk) as (KV & w & T); [left; now rewrite NE|].
  assert (E : process_kwarg fuel tb immune l kw v = ROk (upd i (mkKw (key k) (ktype k) (required k) (Some w)) l)).
  { apply (process_iff l kw v _ F PV). exists i, d, k, w. repeat split; auto. }
  rewrite E. cbn [bind]. apply IH; auto.
  - now apply upd_rel with (d := d).
  - intros x X. apply I. now right.
  - intros j e k0 v0 Ne Nk0 X. destruct (Nat.eq_dec i j) as [<-|D].
    + exfalso. rewrite Nd in Ne. injection Ne as <-. apply NI. cbn [fst]. rewrite <- NE. now apply (in_map fst) in X.
    + rewrite nth_error_upd_other in Nk0 by congruence. apply (H j e k0 v0 Ne Nk0). now right.
Qed.
Lemma dict_good given : forall l, Forall2 kwrel decls l -> Forall (fun kv => proper (snd kv)) given -> good (process_kwarg_dict fuel tb immune l given).
Proof.
  induction given as [|[kw v] given IH]; intros l F P; cbn [process_kwarg_dict]; [left; eauto|].
  inversion P as [|? ? PV P']; subst. cbn [snd] in PV. apply good_bind; [now apply process_good|]. intros l1 E.
  apply (process_iff l kw v l1 F PV) in E. destruct E as (i & d & k & w & Nd & NE & Nk & KV & T & ->). apply IH; [|exact P']. now apply upd_rel with (d := d).
Qed.
Lemma dict_app a b : forall l, process_kwarg_dict fuel tb immune l (a ++ b) = bind (process_kwarg_dict fuel tb immune l a) (fun l => process_kwarg_dict fuel tb immune l b).
Proof.
  induction a as [|[k v] a IH]; intros l; cbn [app process_kwarg_dict bind]; [reflexivity|].
  destruct (process_kwarg fuel tb immune l k v); cbn [bind]; auto.
Qed.

Lemma kwargs_type v : proper v -> (exists d, v = ODict d /\ typecheck fuel tb v k_dict = Yes) \/ typecheck fuel tb v k_dict = No /\ forall d, v <> ODict d.
Proof.
  intros P. destruct (check_decides fuel tb FEW FUEL (SName 10) k_dict v) as [[E M]|[E M]].
  - cbn. lia. - right. exists 10%N. repeat split; auto; lia. - exact P.
  - left. destruct M as [->|M]; [inversion P|]. destruct P; cbn in M; try discriminate; [eauto|]. subst. exfalso. apply H0. cbn. auto.
  - right. split; [exact E|]. intros d ->. apply M. right. reflexivity.
Qed.

Lemma loop_sound args : forall l l', Forall2 kwrel decls l -> Forall proper_arg args -> kwargs_loop fuel tb immune l args = ROk l' ->
  exists kvs given, args = keyworded kvs /\ spread kvs given /\ Forall (fun kv => proper (snd kv)) given /\ process_kwarg_dict fuel tb immune l given = ROk l'.
Proof.
  induction args as [|[[kw|] ov] args IH]; intros l l' F P E; cbn [kwargs_loop] in E; [|apply bind_ok in E; destruct E as (v & EV & E)|discriminate].
  - injection E as <-. exists [], []. repeat split; constructor.
  - destruct ov as [v'|]; [|discriminate]. injection EV as ->. inversion P as [|? ? PV P']; subst. specialize (PV v eq_refl).
    apply bind_ok in E. destruct E as (l1 & E1 & E). destruct (beqb_spec kw (B "kwargs")) as [K|K].
    + subst kw. destruct (kwargs_type v PV) as [(d & -> & T)|[T _]]; rewrite T in E1; [|discriminate].
      inversion PV; subst. assert (F1 : Forall2 kwrel decls l1) by (now apply dict_sound in E1).
      destruct (IH _ _ F1 P' E) as (kvs & given & -> & S & PG & PD).
      exists ((B "kwargs", ODict d) :: kvs), (d ++ given). split; [reflexivity|]. split; [now constructor|]. split; [now apply Forall_app|].
      now rewrite dict_app, E1.
    + assert (F1 : Forall2 kwrel decls l1).
      { apply (process_iff l kw v l1 F PV) in E1. destruct E1 as (i & d & k & w & Nd & NE & Nk & KV & T & ->). now apply upd_rel with (d := d). }
      destruct (IH _ _ F1 P' E) as (kvs & given & -> & S & PG & PD).
      exists ((kw, v) :: kvs), ((kw, v) :: given). split; [reflexivity|]. split; [now constructor|]. split; [now constructor|].
      cbn [process_kwarg_dict]. now rewrite E1.
Qed.
Lemma loop_complete kvs given : spread kvs given -> forall l l', Forall2 kwrel decls l -> Forall proper_arg (keyworded kvs) ->
  process_kwarg_dict fuel tb immune l given = ROk l' -> kwargs_loop fuel tb immune l (keyworded kvs) = ROk l'.
Proof.
  induction 1 as [|k v kvs r K S IH|d kvs r S IH]; intros l l' F P E.
  - exact E.
  - cbn [keyworded map kwargs_loop fst snd eval_arg bind]. inversion P as [|? ? PV P']; subst. specialize (PV v eq_refl).
    destruct (beqb_spec k (B "kwargs")); [contradiction|]. cbn [process_kwarg_dict] in E. apply bind_ok in E. destruct E as (l1 & E1 & E).
    rewrite E1. cbn [bind]. apply IH; auto. apply (process_iff l k v l1 F PV) in E1. destruct E1 as (i & e & k0 & w & Nd & NE & Nk & KV & T & ->). now apply upd_rel with (d := e).
  - cbn [keyworded map kwargs_loop fst snd eval_arg bind]. inversion P as [|? ? PV P']; subst. specialize (PV (ODict d) eq_refl).
    destruct (beqb_spec (B "kwargs") (B "kwargs")) as [_|X]; [|now destruct X].
    destruct (kwargs_type _ PV) as [(d' & E' & T)|[_ X]]; [|now destruct (X d)]. rewrite T. rewrite dict_app in E. apply bind_ok in E. destruct E as (l1 & E1 & E).
    rewrite E1. cbn [bind]. apply IH; auto. inversion PV; subst. now apply dict_sound in E1.
Qed.
Lemma loop_good args : forall l, Forall2 kwrel decls l -> Forall proper_arg args -> good (kwargs_loop fuel tb immune l args).
Proof.
  induction args as [|[[kw|] ov] args IH]; intros l F P; cbn [kwargs_loop]; [left; eauto| |now right].
  inversion P as [|? ? PV P']; subst. apply good_bind; [destruct ov; [left; eexists; reflexivity|now right]|]. intros v E.
  destruct ov; [|discriminate]. injection E as ->. specialize (PV v eq_refl).
  apply good_bind.
  - destruct (beqb_spec kw (B "kwargs")); [|now apply process_good].
    destruct (kwargs_type v PV) as [(d & -> & T)|[T _]]; rewrite T; [|now right]. inversion PV; subst. now apply dict_good.
  - intros l1 E1. apply IH; [|exact P']. destruct (beqb_spec kw (B "kwargs")).
    + destruct (kwargs_type v PV) as [(d & -> & T)|[T _]]; rewrite T in E1; [|discriminate]. inversion PV; subst. now apply dict_sound in E1.
    + apply (process_iff l kw v l1 F PV) in E1. destruct E1 as (i & e & k0 & w & Nd & NE & Nk & KV & T & ->). now apply upd_rel with (d := e).
Qed.
Lemma spread_proper kvs given : spread kvs given -> Forall proper_arg (keyworded kvs) -> Forall (fun kv => proper (snd kv)) given.
Proof.
  induction 1 as [|k v kvs r K S IH|d kvs r S IH]; intros P; [constructor| |].
  - inversion P as [|? ? PV P']; subst. specialize (PV v eq_refl). constructor; auto.
  - inversion P as [|? ? PV P']; subst. specialize (PV (ODict d) eq_refl). inversion PV; subst. apply Forall_app. auto.
Qed.

Definition missing (k : kwarg) : bool := required k && match kval k with None => true | _ => false end.
Lemma keywords_sound ks args l' : Forall2 kwrel decls ks -> Forall (fun k => kval k = None) ks -> Forall proper_arg args ->
  kwargs_end fuel tb immune (Some ks) args = ROk l' ->
  exists kvs given, args = keyworded kvs /\ spread kvs given /\ binds_keywords decls given (map kval l').
Proof.
  intros F U P E. cbn [kwargs_end] in E. apply bind_ok in E. destruct E as (l1 & E1 & E). fold missing in E.
  destruct (existsb missing l1) eqn:M; [discriminate|]. injection E as <-.
  destruct (loop_sound _ _ _ F P E1) as (kvs & given & -> & S & PG & PD).
  destruct (dict_sound _ _ _ F PG PD) as (N & I & F' & PR).
  exists kvs, given. refine (conj eq_refl (conj S (conj N (conj I _)))). apply forall2_nth. rewrite map_length. split; [now apply forall2_len in F'|].
  intros i d o Nd No. rewrite nth_error_map in No. destruct (nth_error l1 i) as [k'|] eqn:Nk'; [|discriminate]. injection No as <-.
  assert (Nk : exists k, nth_error ks i = Some k).
  { destruct (nth_error ks i) eqn:E; [eauto|]. apply nth_error_None in E. assert (i < length decls) by (apply nth_error_Some; congruence). apply forall2_len in F. lia. }
  destruct Nk as (k & Nk). destruct (PR i d k Nd Nk) as (k'' & X & C). rewrite Nk' in X. injection X as <-.
  assert (KN : kval k = None). { eapply (proj1 (Forall_forall _ _) U). now apply nth_error_In in Nk. }
  destruct C as [[A C]|(v & w & A & T & _ & C)].
  - rewrite C, KN. split; [|exact A]. apply forall2_nth in F'. destruct F' as [_ F']. destruct (F' i d k' Nd Nk') as (_ & _ & R). rewrite <- R.
    destruct (required k') eqn:Q; [|reflexivity]. exfalso. assert (Y : existsb missing l1 = true); [|congruence].
    apply existsb_exists. exists k'. split; [now apply nth_error_In in Nk'|]. unfold missing. now rewrite Q, C, KN.
  - rewrite C. eauto.
Qed.
Lemma keywords_complete ks kvs given vals : Forall2 kwrel decls ks -> Forall (fun k => kval k = None) ks -> Forall proper_arg (keyworded kvs) ->
  spread kvs given -> binds_keywords decls given vals ->
  exists l', kwargs_end fuel tb immune (Some ks) (keyworded kvs) = ROk l' /\ map kval l' = vals.
Proof.
  intros F U P S (N & I & B). assert (PG := spread_proper _ _ S P). assert (LB := forall2_len _ _ _ B). apply forall2_nth in B. destruct B as [_ B].
  assert (UN : forall i k, nth_error ks i = Some k -> kval k = None). { intros i k Nk. eapply (proj1 (Forall_forall _ _) U). now apply nth_error_In in Nk. }
  assert (GU : forall k v v', In (k, v) given -> In (k, v') given -> v = v').
  { clear -N. induction given as [|[a b] given IH]; intros k v v' H1 H2; [destruct H1|]. inversion N; subst. cbn in *.
    destruct H1 as [H1|H1], H2 as [H2|H2]; try congruence; [| |now apply (IH H4 k)].
    - injection H1 as -> ->. destruct H3. now apply (in_map fst) in H2.
    - injection H2 as -> ->. destruct H3. now apply (in_map fst) in H1. }
  assert (NV : forall i d, nth_error decls i = Some d -> exists o, nth_error vals i = Some o).
  { intros i d Nd. destruct (nth_error vals i) eqn:E; [eauto|]. apply nth_error_None in E. assert (i < length decls) by (apply nth_error_Some; congruence). lia. }
  destruct (dict_complete given ks F PG N I) as (l' & E).
  { intros i d k v Nd Nk G. split; [now apply (UN i)|]. destruct (NV i d Nd) as (o & No). specialize (B i d o Nd No).
    destruct o as [w|]; [|destruct B as [_ B]; destruct B; now apply (in_map fst) in G].
    destruct B as (v' & G' & T). exists w. now rewrite (GU _ _ _ G G'). }
  destruct (dict_sound _ _ _ F PG E) as (_ & _ & F' & PR). assert (LF := forall2_len _ _ _ F').
  assert (V : map kval l' = vals).
  { apply (nth_ext _ _ None None); [rewrite map_length; congruence|]. intros i L. rewrite map_length in L.
    assert (X : exists d, nth_error decls i = Some d). { destruct (nth_error decls i) eqn:Y; [eauto|]. apply nth_error_None in Y. lia. }
    destruct X as (d & Nd). destruct (NV i d Nd) as (o & No). specialize (B i d o Nd No).
    assert (X : exists k, nth_error ks i = Some k). { destruct (nth_error ks i) eqn:Y; [eauto|]. apply nth_error_None in Y. apply forall2_len in F. lia. }
    destruct X as (k & Nk). destruct (PR i d k Nd Nk) as (k' & Nk' & C).
    rewrite (nth_error_nth _ _ _ No). rewrite (nth_error_nth (map kval l') i (x := kval k')) by (rewrite nth_error_map, Nk'; reflexivity).
    destruct C as [[A C]|(v & w & A & T & _ & C)]; rewrite C.
    - rewrite (UN i k Nk). destruct o as [w|]; [|reflexivity]. destruct B as (v & G & _). destruct A. now apply (in_map fst) in G.
    - destruct o as [w'|]; [|destruct B as [_ B]; destruct B; now apply (in_map fst) in A].
      destruct B as (v' & G' & T'). rewrite (GU _ _ _ G' A) in T'. f_equal. now apply (takes_fun _ _ _ _ T T'). }
  exists l'. split; [|exact V]. cbn [kwargs_end]. rewrite (loop_complete _ _ S _ _ F P E). cbn [bind]. fold missing.
  replace (existsb missing l') with false; [reflexivity|]. symmetry. apply Bool.not_true_iff_false. intros X. apply existsb_exists in X. destruct X as (k & Hk & M).
  apply In_nth_error in Hk. destruct Hk as (i & Nk). unfold missing in M. apply Bool.andb_true_iff in M. destruct M as [M1 M2].
  assert (X : exists d, nth_error decls i = Some d). { destruct (nth_error decls i) eqn:Y; [eauto|]. apply nth_error_None in Y. assert (i < length l') by (apply nth_error_Some; congruence). lia. }
  destruct X as (d & Nd). apply forall2_nth in F'. destruct F' as [_ F']. destruct (F' i d k Nd Nk) as (_ & _ & R).
  assert (No : nth_error vals i = Some (kval k)) by (now rewrite <- V, nth_error_map, Nk). specialize (B i d _ Nd No).
  destruct (kval k); [discriminate|]. destruct B as [B _]. congruence.
Qed.
Lemma keywords_good ks args : Forall2 kwrel decls ks -> Forall proper_arg args -> good (kwargs_end fuel tb immune (Some ks) args).
Proof.
  intros F P. cbn [kwargs_end]. apply good_bind; [now apply loop_good|]. intros l _. destruct (existsb _ l); [now right|left; eauto].
Qed.
End Keywords.

(** ** Calls *)
Section Calls.
Variable fuel : nat.
Variable tb : table.
Variable immune : bool.
Hypothesis FEW : few tb.
Hypothesis FUEL : length tb < fuel.

Lemma no_glob ps tags : Forall2 (param_tag tb) ps tags -> existsb (fun t => has t GLOB) tags = false.
Proof. induction 1 as [|p t ps tags T _ IH]; [reflexivity|]. cbn [existsb]. now rewrite (param_no_glob tb FEW p t T), IH. Qed.
Lemma glob_bits t : N.testbit t 61 = false -> N.testbit t 62 = false ->
  has (N.lor GLOB t) GLOB = true /\ has (N.lor GLOB t) LISTIFY = false /\ N.ldiff (N.lor GLOB t) GLOB = t.
Proof.
  intros G L. unfold GLOB, LISTIFY. rewrite !has_bit, !N.lor_spec, N.pow2_bits_true, N.pow2_bits_eqb. rewrite L.
  split; [reflexivity|]. split; [reflexivity|]. now apply set_clear_bit.
Qed.
Lemma app_proper a b : Forall proper_arg (a ++ b) -> Forall proper_arg b.
Proof. intros H. now apply Forall_app in H. Qed.

Lemma no_positional_split a b vs kvs : no_positional b -> positional a ++ b = positional vs ++ keyworded kvs -> a = vs /\ b = keyworded kvs.
Proof.
  intros NP. revert vs. induction a as [|x a IH]; intros [|v vs] E; cbn in E.
  - auto.
  - subst b. destruct NP.
  - destruct kvs as [|[k y] kvs]; discriminate.
  - injection E as -> E. destruct (IH vs E) as [-> ->]. auto.
Qed.
Lemma keyworded_no_positional kvs : no_positional (keyworded kvs).
Proof. destruct kvs as [|[k v] kvs]; exact I. Qed.

(** The positional arguments: what is left begins with a keyword. *)
Lemma takes_all_len ps vs ws : takes_all ps vs ws -> length ps = length vs /\ length vs = length ws.
Proof. induction 1; cbn; [auto|]. destruct IHtakes_all. split; congruence. Qed.

Definition kw_ok (sg : signature) (kws : option (list kwarg)) : Prop :=
  match s_kw sg, kws with
  | None, None => True
  | Some l, Some ks =>
      NoDup (map (fun d => fst (fst d)) l) /\
      Forall2 (fun d k => key k = fst (fst d) /\ param_tag tb (snd (fst d)) (ktype k) /\ required k = snd d /\ kval k = None) l ks
  | _, _ => False
  end.
Lemma kw_split l ks : Forall2 (fun d k => key k = fst (fst d) /\ param_tag tb (snd (fst d)) (ktype k) /\ required k = snd d /\ kval k = None) l ks ->
  Forall2 (kwrel tb) l ks /\ Forall (fun k => kval k = None) ks.
Proof. induction 1 as [|d k l ks (A & B & C & D) _ [IH1 IH2]]; split; constructor; auto. now repeat split. Qed.

Definition binds_kw (sg : signature) (args : list arg) (vals : list (option obj)) : Prop :=
  exists kvs, args = keyworded kvs /\
    match s_kw sg with
    | None => kvs = [] /\ vals = []
    | Some decls => exists given, spread kvs given /\ binds_keywords decls given vals
    end.
Lemma end_sound sg kws args l' : kw_ok sg kws -> Forall proper_arg args ->
  kwargs_end fuel tb immune kws args = ROk l' -> binds_kw sg args (map kval l').
Proof.
  unfold kw_ok, binds_kw. intros K P E. destruct (s_kw sg) as [decls|], kws as [ks|]; try contradiction.
  - destruct K as [ND K]. apply kw_split in K. destruct K as [F U].
    destruct (keywords_sound fuel tb immune FEW FUEL decls ND ks args l' F U P E) as (kvs & given & -> & S & B). eauto.
  - cbn [kwargs_end] in E. destruct args; [|discriminate]. injection E as <-. exists []. auto.
Qed.
Lemma end_complete sg kws args vals : kw_ok sg kws -> Forall proper_arg args -> binds_kw sg args vals ->
  exists l', kwargs_end fuel tb immune kws args = ROk l' /\ map kval l' = vals.
Proof.
  unfold kw_ok, binds_kw. intros K P (kvs & -> & B). destruct (s_kw sg) as [decls|], kws as [ks|]; try contradiction.
  - destruct K as [ND K]. apply kw_split in K. destruct K as [F U]. destruct B as (given & S & B).
    now apply (keywords_complete fuel tb immune FEW FUEL decls ND ks kvs given vals F U P S B).
  - destruct B as [-> ->]. exists []. auto.
Qed.
Lemma end_good sg kws args : kw_ok sg kws -> Forall proper_arg args -> good (kwargs_end fuel tb immune kws args).
Proof.
  unfold kw_ok. intros K P. destruct (s_kw sg) as [decls|], kws as [ks|]; try contradiction.
  - destruct K as [ND K]. apply kw_split in K. destruct K as [F U]. now apply (keywords_good fuel tb immune FEW FUEL decls ND).
  - cbn [kwargs_end]. destruct args; [left; eauto|now right].
Qed.

Lemma call_sound sg pos opts kws args p o k : declared tb sg pos opts kws -> Forall proper_arg args ->
  interp_args fuel tb immune pos opts kws args = ROk (p, o, k) -> binds sg args p o (map kval k).
Proof.
  intros ((tags & FT & R) & O & K) P E. unfold interp_args in E.
  destruct (match opts with Some _ => _ | None => _ end) eqn:G; [discriminate|]. clear G.
  apply bind_ok in E. destruct E as ([p1 a1] & E1 & E). apply bind_ok in E. destruct E as ([o1 a2] & E2 & E).
  apply bind_ok in E. destruct E as (k1 & E3 & E). injection E as -> -> ->.
  destruct (s_rest sg) as [s|] eqn:RS.
  - destruct R as (t & NM & NC & ST & -> & OS). rewrite OS in O. destruct opts; [contradiction|].
    assert (T := shape tb t s FEW NM ST).
    destruct (glob_bits t (shape_no_bit _ _ 61%N T (or_introl eq_refl)) (shape_no_bit _ _ 62%N T (or_intror eq_refl))) as (G1 & G2 & G3).
    apply (positional_iff fuel tb immune FEW FUEL _ _ _ FT) in E1; [|exact P]. destruct E1 as (req & seen & args' & -> & TA & E1). apply app_proper in P.
    cbn [positional_loop] in E1. rewrite G1, G2, G3 in E1. apply bind_ok in E1. destruct E1 as ([l a3] & E1 & E4). injection E4 as <- <-.
    apply (glob_iff fuel tb immune FEW FUEL s t NM NC ST _ _ _ _ P) in E1. destruct E1 as (more & ls & -> & F & -> & NP). apply app_proper in P.
    cbn in E2. injection E2 as <- <-. destruct (end_sound sg kws a3 k K P E3) as (kvs & -> & B).
    exists (req ++ more), kvs. split; [unfold positional; now rewrite map_app, app_assoc|]. split; [|exact B].
    exists req, more, seen. rewrite RS. repeat split; auto. exists ls. auto.
  - subst pos. rewrite <- (app_nil_r tags) in E1. apply (positional_iff fuel tb immune FEW FUEL _ _ _ FT) in E1; [|exact P].
    destruct E1 as (req & seen & args' & -> & TA & E1). apply app_proper in P. cbn in E1. injection E1 as <- <-.
    assert (O' : exists ps ts, Forall2 (param_tag tb) ps ts /\ match s_opt sg with Some l => l | None => [] end = ps /\ match opts with Some l => l | None => [] end = ts).
    { destruct (s_opt sg), opts; try contradiction; eauto. }
    destruct O' as (ps & ts & FO & PS & TS). rewrite TS in E2.
    apply (optional_iff fuel tb immune FEW FUEL _ _ FO) in E2; [|exact P]. destruct E2 as (more & got & -> & L & TO & -> & NP). apply app_proper in P.
    destruct (end_sound sg kws a2 k K P E3) as (kvs & -> & B).
    exists (req ++ more), kvs. split; [unfold positional; now rewrite map_app, app_assoc|]. split; [|exact B].
    exists req, more, seen. rewrite RS, PS. repeat split; auto. exists got. auto.
Qed.
Lemma call_complete sg pos opts kws args p o vals : declared tb sg pos opts kws -> Forall proper_arg args -> binds sg args p o vals ->
  exists k, interp_args fuel tb immune pos opts kws args = ROk (p, o, k) /\ map kval k = vals.
Proof.
  intros ((tags & FT & R) & O & K) P (vs & kvs & -> & (req & more & seen & -> & TA & BP) & BK).
  assert (PK := app_proper _ _ P).
  destruct (end_complete sg kws (keyworded kvs) vals K PK) as (k & EK & EV); [exists kvs; auto|].
  exists k. split; [|exact EV]. unfold interp_args.
  destruct (s_rest sg) as [s|] eqn:RS.
  - destruct R as (t & NM & NC & ST & -> & OS). rewrite OS in O. destruct opts; [contradiction|].
    assert (T := shape tb t s FEW NM ST).
    destruct (glob_bits t (shape_no_bit _ _ 61%N T (or_introl eq_refl)) (shape_no_bit _ _ 62%N T (or_intror eq_refl))) as (G1 & G2 & G3).
    destruct BP as (ls & F & -> & ->).
    assert (E1 : positional_loop fuel tb immune (tags ++ [N.lor GLOB t]) (positional (req ++ more) ++ keyworded kvs) [] = ROk (seen ++ [OArray (concat ls)], keyworded kvs)).
    { apply (positional_iff fuel tb immune FEW FUEL _ _ _ FT); [exact P|]. exists req, seen, (positional more ++ keyworded kvs).
      split; [unfold positional; now rewrite map_app, app_assoc|]. split; [exact TA|]. cbn [positional_loop app]. rewrite G1, G2, G3.
      apply bind_ok. exists (concat ls, keyworded kvs). split; [|reflexivity]. apply (glob_iff fuel tb immune FEW FUEL s t NM NC ST).
      - unfold positional in P. rewrite map_app, <- app_assoc in P. now apply app_proper in P.
      - exists more, ls. repeat split; auto. apply keyworded_no_positional. }
    rewrite E1. cbn [bind optional_loop]. now rewrite EK.
  - subst pos. destruct BP as (-> & L & got & TO & ->).
    replace (match opts with Some _ => existsb (fun t => has t GLOB) tags | None => false end) with false by (destruct opts; [symmetry; now apply (no_glob (s_pos sg))|reflexivity]).
    assert (E1 : positional_loop fuel tb immune tags (positional (req ++ more) ++ keyworded kvs) [] = ROk (seen, positional more ++ keyworded kvs)).
    { rewrite <- (app_nil_r tags). apply (positional_iff fuel tb immune FEW FUEL _ _ _ FT); [exact P|]. exists req, seen, (positional more ++ keyworded kvs).
      split; [unfold positional; now rewrite map_app, app_assoc|]. split; [exact TA|]. reflexivity. }
    rewrite E1. cbn [bind].
    assert (O' : exists ps ts, Forall2 (param_tag tb) ps ts /\ match s_opt sg with Some l => l | None => [] end = ps /\ match opts with Some l => l | None => [] end = ts).
    { destruct (s_opt sg), opts; try contradiction; eauto. }
    destruct O' as (ps & ts & FO & PS & TS). rewrite TS. rewrite PS in *.
    assert (E2 : optional_loop fuel tb immune ts (positional more ++ keyworded kvs) [] = ROk (map Some got ++ repeat None (length ps - length more), keyworded kvs)).
    { apply (optional_iff fuel tb immune FEW FUEL _ _ FO).
      - unfold positional in P. rewrite map_app, <- app_assoc in P. now apply app_proper in P.
      - exists more, got. repeat split; auto. right. apply keyworded_no_positional. }
    rewrite E2. cbn [bind]. now rewrite EK.
Qed.
Lemma call_good sg pos opts kws args : declared tb sg pos opts kws -> Forall proper_arg args -> good (interp_args fuel tb immune pos opts kws args).
Proof.
  intros ((tags & FT & R) & O & K) P. unfold interp_args.
  assert (EV : forall (ps : list top) (x : list obj) args', Forall proper_arg args' -> s_opt sg = None \/ s_opt sg = Some ps ->
    good (bind (optional_loop fuel tb immune match opts with Some l => l | None => [] end args' []) (fun '(o, args) =>
      bind (kwargs_end fuel tb immune kws args) (fun k => ROk (x, o, k))))).
  { intros ps x args' PA _.
    assert (O' : exists ps ts, Forall2 (param_tag tb) ps ts /\ match opts with Some l => l | None => [] end = ts).
    { destruct (s_opt sg), opts; try contradiction; eauto. }
    destruct O' as (ps' & ts & FO & ->). apply good_bind; [now apply (optional_good fuel tb immune FEW FUEL ps')|].
    intros [o1 a2] E2. apply (optional_iff fuel tb immune FEW FUEL _ _ FO) in E2; [|exact PA]. destruct E2 as (more & got & -> & _). apply app_proper in PA.
    apply good_bind; [now apply (end_good sg)|]. intros k _. left. eauto. }
  destruct (s_rest sg) as [s|] eqn:RS.
  - destruct R as (t & NM & NC & ST & -> & OS). rewrite OS in O. destruct opts; [contradiction|].
    assert (T := shape tb t s FEW NM ST).
    destruct (glob_bits t (shape_no_bit _ _ 61%N T (or_introl eq_refl)) (shape_no_bit _ _ 62%N T (or_intror eq_refl))) as (G1 & G2 & G3).
    apply good_bind.
    + apply (positional_good fuel tb immune FEW FUEL _ _ _ FT); [|exact P]. intros args' acc PA. cbn [positional_loop]. rewrite G1, G2, G3.
      apply good_bind; [now apply (glob_good fuel tb immune FEW FUEL s t NM ST)|]. intros [l a] _. left. eauto.
    + intros [p1 a1] E1. apply (positional_iff fuel tb immune FEW FUEL _ _ _ FT) in E1; [|exact P]. destruct E1 as (req & seen & args' & -> & TA & E1). apply app_proper in P.
      cbn [positional_loop] in E1. rewrite G1, G2, G3 in E1. apply bind_ok in E1. destruct E1 as ([l a3] & E1 & E4). injection E4 as <- <-.
      apply (glob_iff fuel tb immune FEW FUEL s t NM NC ST _ _ _ _ P) in E1. destruct E1 as (more & ls & -> & F & -> & NP). apply app_proper in P.
      now apply (EV []); [|left].
  - subst pos. replace (match opts with Some _ => existsb (fun t => has t GLOB) tags | None => false end) with false by (destruct opts; [symmetry; now apply (no_glob (s_pos sg))|reflexivity]).
    rewrite <- (app_nil_r tags). apply good_bind.
    + apply (positional_good fuel tb immune FEW FUEL _ _ _ FT); [|exact P]. intros. left. eexists. reflexivity.
    + intros [p1 a1] E1. apply (positional_iff fuel tb immune FEW FUEL _ _ _ FT) in E1; [|exact P]. destruct E1 as (req & seen & args' & -> & TA & E1). apply app_proper in P.
      cbn in E1. injection E1 as <- <-. destruct (s_opt sg) as [ps|]; [apply (EV ps); auto|apply (EV []); auto].
Qed.
End Calls.

(** ** Disablers *)
Section Disablers.
Variable fuel : nat.
Variable tb : table.
Definition clean (v : obj) : Prop := ~ In ODisabler (flat v).
Definition clean_arg (a : arg) : Prop := exists v, snd a = Some v /\ clean v.

Lemma existsb_clean l : existsb is_disabler l = false -> ~ In ODisabler l.
Proof.
  intros E I. assert (X : existsb is_disabler l = true); [|congruence]. apply existsb_exists. exists ODisabler. auto.
Qed.
Lemma arg_clean v t w : typecheck_function_arg fuel tb false v t = ROk w -> clean v.
Proof.
  unfold typecheck_function_arg. cbn [negb andb]. unfold clean. destruct v; try discriminate; try (intros _; cbn; intros [X|[]]; discriminate).
  destruct (existsb is_disabler (flat (OArray l))) eqn:E; [discriminate|]. intros _. now apply existsb_clean.
Qed.
Lemma glob_clean t args : forall acc l rest, glob_loop fuel tb false t args acc = ROk (l, rest) -> exists a, args = a ++ rest /\ Forall clean_arg a.
Proof.
  induction args as [|[[k|] ov] args IH]; intros acc l rest E; cbn [glob_loop] in E.
  - injection E as _ <-. exists []. auto.
  - injection E as _ <-. exists []. auto.
  - apply bind_ok in E. destruct E as (v & EV & E). destruct ov as [v'|]; [|discriminate]. injection EV as ->.
    assert (C : clean v /\ exists acc, glob_loop fuel tb false t args acc = ROk (l, rest)).
    { destruct (_ && _); apply bind_ok in E; destruct E as (w & EW & E); (split; [now apply arg_clean in EW|]); [destruct w; try discriminate|]; eauto. }
    destruct C as (C & acc' & E'). destruct (IH _ _ _ E') as (a & -> & F). exists ((None, Some v) :: a). split; [reflexivity|]. constructor; [|exact F]. exists v. auto.
Qed.
Lemma positional_clean types : forall args acc l rest, positional_loop fuel tb false types args acc = ROk (l, rest) -> exists a, args = a ++ rest /\ Forall clean_arg a.
Proof.
  induction types as [|t types IH]; intros args acc l rest E; cbn [positional_loop] in E.
  - injection E as _ <-. exists []. auto.
  - destruct (has t GLOB).
    + destruct types; [|discriminate]. destruct (has t LISTIFY); [discriminate|]. apply bind_ok in E. destruct E as ([l1 r1] & E & X). injection X as _ <-.
      now apply glob_clean in E.
    + destruct args as [|[[k|] ov] args]; try discriminate. apply bind_ok in E. destruct E as (v & EV & E). destruct ov as [v'|]; [|discriminate]. injection EV as ->.
      apply bind_ok in E. destruct E as (w & EW & E). destruct (IH _ _ _ _ E) as (a & -> & F). exists ((None, Some v) :: a). split; [reflexivity|].
      constructor; [|exact F]. exists v. split; [reflexivity|]. now apply arg_clean in EW.
Qed.
Lemma optional_clean types : forall args acc l rest, optional_loop fuel tb false types args acc = ROk (l, rest) -> exists a, args = a ++ rest /\ Forall clean_arg a.
Proof.
  induction types as [|t types IH]; intros args acc l rest E; cbn [optional_loop] in E.
  - injection E as _ <-. exists []. auto.
  - destruct (has t GLOB); [discriminate|].
    destruct args as [|[[k|] ov] args]; [injection E as _ <-; exists []; auto|injection E as _ <-; exists []; auto|].
    apply bind_ok in E. destruct E as (v & EV & E). destruct ov as [v'|]; [|discriminate]. injection EV as ->.
    apply bind_ok in E. destruct E as (w & EW & E). destruct (IH _ _ _ _ E) as (a & -> & F). exists ((None, Some v) :: a). split; [reflexivity|].
    constructor; [|exact F]. exists v. split; [reflexivity|]. now apply arg_clean in EW.
Qed.
Lemma process_clean l kw v l' : process_kwarg fuel tb false l kw v = ROk l' -> clean v.
Proof.
  unfold process_kwarg. destruct (find_kw l kw 0) as [[i k]|]; [|discriminate]. intros E. apply bind_ok in E. destruct E as (w & EW & _). now apply arg_clean in EW.
Qed.
Lemma loop_clean args : forall l l', kwargs_loop fuel tb false l args = ROk l' -> Forall (fun a => fst a <> Some (B "kwargs") -> clean_arg a) args.
Proof.
  induction args as [|[[kw|] ov] args IH]; intros l l' E; cbn [kwargs_loop] in E; [constructor| |discriminate].
  apply bind_ok in E. destruct E as (v & EV & E). destruct ov as [v'|]; [|discriminate]. injection EV as ->.
  apply bind_ok in E. destruct E as (l1 & E1 & E). constructor; [|now apply (IH l1 l')]. cbn [fst]. intros NK.
  destruct (beqb_spec kw (B "kwargs")) as [->|_]; [congruence|]. exists v. split; [reflexivity|]. now apply process_clean in E1.
Qed.
Lemma call_clean pos opts kws args r : interp_args fuel tb false pos opts kws args = ROk r ->
  Forall (fun a => fst a <> Some (B "kwargs") -> clean_arg a) args.
Proof.
  unfold interp_args. destruct (match opts with Some _ => _ | None => _ end); [discriminate|]. intros E.
  apply bind_ok in E. destruct E as ([p1 a1] & E1 & E). apply bind_ok in E. destruct E as ([o1 a2] & E2 & E).
  apply bind_ok in E. destruct E as (k1 & E3 & _).
  apply positional_clean in E1. destruct E1 as (b1 & -> & F1). apply optional_clean in E2. destruct E2 as (b2 & -> & F2).
  assert (W : forall l, Forall clean_arg l -> Forall (fun a => fst a <> Some (B "kwargs") -> clean_arg a) l).
  { intros l F. eapply Forall_impl; [|exact F]. auto. }
  apply Forall_app. split; [auto|]. apply Forall_app. split; [auto|]. destruct kws as [l|]; cbn [kwargs_end] in E3.
  - apply bind_ok in E3. destruct E3 as (l1 & E3 & _). now apply loop_clean in E3.
  - destruct a2; [constructor|discriminate].
Qed.
End Disablers.
