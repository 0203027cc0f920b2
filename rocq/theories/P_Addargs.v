(** C149: the arguments that are given for all targets. *)
From Verif Require Import Base M_Addargs S_Addargs.
Local Arguments B _ : simpl never.

Lemma index_some : forall s l i n, index_of s l i = Some n -> nth_error l (n - i) = Some s /\ i <= n.
Proof.
  intros s l. induction l as [|x l IH]; intros i n H; cbn [index_of] in H; [discriminate|]. destruct (beqb_spec s x) as [->|].
  - injection H as <-. rewrite Nat.sub_diag. split; [reflexivity|lia].
  - apply IH in H as (H & L). replace (n - i) with (S (n - S i)) by lia. split; [exact H|lia].
Qed.
Lemma index_none : forall s l i, index_of s l i = None <-> ~ In s l.
Proof.
  intros s l. induction l as [|x l IH]; intros i; cbn [index_of In]; [tauto|]. destruct (beqb_spec s x) as [->|N].
  - split; [discriminate|tauto].
  - rewrite IH. intuition congruence.
Qed.
Lemma language_known : forall l, (exists i, language l = Some i) <-> known l.
Proof.
  intros l. unfold language. assert (E : known l <-> In l language_names) by (unfold known, language_names; cbn [In]; tauto).
  rewrite E. destruct (index_of l language_names 0) as [i|] eqn:X.
  - split; [intros _|intros _; exists i; reflexivity]. apply index_some in X as (X & _). apply nth_error_In in X. exact X.
  - split; [intros (i & [=])|intros I]. apply index_none in X. contradiction.
Qed.
Lemma language_same : forall a b i, language a = Some i -> language b = Some i -> a = b.
Proof. intros a b i Ha Hb. apply index_some in Ha as (Ha & _), Hb as (Hb & _). congruence. Qed.

Definition at_ (d : dict) (i : nat) : list bytes := match geti d i with Some v => v | None => [] end.
Lemma push_at : forall d i l j, at_ (push d i l) j = at_ d j ++ (if i =? j then l else []).
Proof.
  intros d i l j. unfold at_. induction d as [|[k v] d IH]; cbn [push geti].
  - destruct (i =? j); reflexivity.
  - destruct (Nat.eqb_spec k i) as [->|N]; cbn [geti].
    + destruct (i =? j); [reflexivity|rewrite app_nil_r; reflexivity].
    + destruct (Nat.eqb_spec k j) as [->|]; [|exact IH]. destruct (Nat.eqb_spec i j); [congruence|rewrite app_nil_r; reflexivity].
Qed.

Lemma lang_eqb : forall x l i j, language x = Some i -> language l = Some j -> beqb x l = (i =? j).
Proof.
  intros x l i j Hx Hl. destruct (beqb_spec x l) as [->|N].
  - assert (i = j) by congruence. subst. symmetry. apply Nat.eqb_refl.
  - symmetry. apply Nat.eqb_neq. intros ->. apply N. exact (language_same x l j Hx Hl).
Qed.

Lemma add_each_at : forall args langs d d' l j, language l = Some j -> add_each d args langs = (d', true) ->
  at_ d' j = at_ d j ++ per_language l langs args.
Proof.
  intros args langs. induction langs as [|x langs IH]; intros d d' l j Hl H; cbn [add_each] in H.
  - injection H as <-. cbn. rewrite app_nil_r. reflexivity.
  - destruct (language x) as [i|] eqn:Ex; [|discriminate]. rewrite (IH _ _ l j Hl H), push_at, <- app_assoc. unfold per_language. cbn [flat_map].
    rewrite (lang_eqb x l i j Ex Hl). reflexivity.
Qed.
Lemma add_each_ok : forall args langs d, snd (add_each d args langs) = true <-> Forall known langs.
Proof.
  intros args langs. induction langs as [|x langs IH]; intros d; cbn [add_each]; [split; [constructor|reflexivity]|].
  destruct (language x) as [i|] eqn:Ex.
  - rewrite IH. split; [intros F; constructor; [apply language_known; eauto|exact F]|apply Forall_inv_tail].
  - split; [discriminate|]. intros F. apply Forall_inv in F. apply language_known in F as (i & F). congruence.
Qed.

Lemma add_deps_at : forall declared c l i langs d x j k, language x = Some j -> Forall (fun y => known y /\ declared y = true) langs ->
  at_ (part k (add_deps declared d c l i langs)) j = at_ (part k d) j ++ per_language x langs (match k with Compile => c | Link => l | Include => i end).
Proof.
  intros declared c l i langs. induction langs as [|y langs IH]; intros d x j k Hx F; cbn [add_deps].
  - cbn. rewrite app_nil_r. reflexivity.
  - destruct (Forall_inv F) as (Kn & Dn). apply language_known in Kn as (n & En). rewrite En, Dn. rewrite (IH _ x j k Hx (Forall_inv_tail F)).
    unfold per_language. cbn [flat_map]. rewrite (lang_eqb y x n j En Hx). rewrite app_assoc. f_equal. destruct k; cbn [part d_compile d_link d_include]; apply push_at.
Qed.

Lemma part_with : forall k k' x d, part k (with_part k' x d) = if same k k' then x else part k d.
Proof. intros [] [] x d; reflexivity. Qed.

(** C149: what is added to the command lines of a project for a language are the words that calls in
    the main project gave to all projects, then those that the project itself gave, each in the
    order in which they were given and as often as the language was named; nothing that
    other projects or other languages were given. *)
Theorem C149_words_partial : forall declared h s p k l, run declared empty h = Some s -> known l -> declared_all declared h ->
  words s p k l = Some (to_all k l h ++ to_project p k l h).
Proof.
  intros declared h s p k l R Kn D. apply language_known in Kn as (j & Hj). unfold words. rewrite Hj. cbv zeta.
  change (Some (at_ (part k (globals s)) j ++ at_ (part k (projects s p)) j) = Some (to_all k l h ++ to_project p k l h)).
  assert (G : forall h s0, run declared s0 h = Some s -> declared_all declared h ->
    at_ (part k (globals s)) j = at_ (part k (globals s0)) j ++ to_all k l h
    /\ at_ (part k (projects s p)) j = at_ (part k (projects s0 p)) j ++ to_project p k l h).
  { clear R D h. induction h as [|[q o] h IH]; intros s0 R D; cbn [run] in R.
    - injection R as ->. unfold to_all, to_project. cbn [flat_map]. rewrite !app_nil_r. split; reflexivity.
    - destruct (step declared q o s0) as [s1 []] eqn:E; [|discriminate]. pose proof (Forall_inv D) as Dh. cbn [fst snd] in Dh.
      destruct (IH s1 R (Forall_inv_tail D)) as (I1 & I2). rewrite I1, I2. unfold to_all, to_project. cbn [flat_map fst snd]. rewrite !app_assoc.
      fold (to_all k l h). fold (to_project p k l h).
      destruct o as [k' args langs|k' args langs|c m i langs]; cbn [step] in E.
      + destruct (add_each (part k' (projects s0 q)) args langs) as [d ok] eqn:A. injection E as <- ->. cbn [globals projects set_project]. rewrite app_nil_r. split; [reflexivity|].
        destruct (Nat.eqb_spec q p) as [->|N].
        * rewrite Nat.eqb_refl, part_with. f_equal. destruct (same k k') eqn:Sk; [|rewrite app_nil_r; reflexivity].
          assert (k = k') by (destruct k, k'; cbn in Sk; congruence). subst k'. exact (add_each_at _ _ _ _ _ _ Hj A).
        * destruct (Nat.eqb_spec p q); [congruence|]. rewrite app_nil_r. reflexivity.
      + destruct (negb (q =? 0)); [discriminate|]. destruct (add_each (part k' (globals s0)) args langs) as [d ok] eqn:A. injection E as <- ->. cbn [globals projects].
        split; [|destruct (q =? p); rewrite app_nil_r; reflexivity]. rewrite part_with. f_equal. destruct (same k k') eqn:Sk; [|rewrite app_nil_r; reflexivity].
        assert (k = k') by (destruct k, k'; cbn in Sk; congruence). subst k'. exact (add_each_at _ _ _ _ _ _ Hj A).
      + injection E as <-. cbn [globals projects set_project]. rewrite app_nil_r. split; [reflexivity|]. destruct (Nat.eqb_spec q p) as [->|N].
        * rewrite Nat.eqb_refl. f_equal. apply add_deps_at; assumption.
        * destruct (Nat.eqb_spec p q); [congruence|]. rewrite app_nil_r. reflexivity. }
  destruct (G h empty R D) as (-> & ->). f_equal. destruct k; reflexivity.
Qed.
Print Assumptions C149_words_partial.

(** C149: a call that adds arguments is accepted exactly if all languages are known and, for those for
    all projects, it is made by the main project. *)
Theorem C149_accepted_partial : forall declared p o s, (forall c l i ls, o <> AddDeps c l i ls) ->
  snd (step declared p o s) = true <-> Forall known (languages o) /\ (forall k args langs, o = AddGlobal k args langs -> p = 0).
Proof.
  intros declared p o s N. destruct o as [k args langs|k args langs|c l i langs]; cbn [step languages]; [| |destruct (N _ _ _ _ eq_refl)].
  - rewrite <- (add_each_ok args langs (part k (projects s p))). destruct (add_each _ _ _) as [d ok]. cbn [snd]. split; [intros ->; split; [reflexivity|discriminate]|tauto].
  - destruct (Nat.eqb_spec p 0) as [->|Np]; cbn [negb].
    + rewrite <- (add_each_ok args langs (part k (globals s))). destruct (add_each _ _ _) as [d ok]. cbn [snd]. split; [intros ->; split; reflexivity|tauto].
    + split; [discriminate|]. intros (_ & H). destruct Np. exact (H k args langs eq_refl).
Qed.
Print Assumptions C149_accepted_partial.

(** ** Examples *)
Definition a_history : list (nat * op) :=
  [(0, AddGlobal Compile [B "-Dg"] [B "c"; B "cpp"]); (0, AddProject Compile [B "-Da"; B "-Db"] [B "c"]); (1, AddProject Compile [B "-Dsub"] [B "c"]);
   (0, AddProject Link [B "-la"] [B "c"]); (0, AddDeps [B "-Dd"] [B "-ld"] [B "inc"] [B "c"]); (0, AddGlobal Compile [B "-Dh"] [B "c"])].
Definition a_declared (p : nat) (n : bytes) : bool := beqb n (B "c").
Example ex_words : exists s, run a_declared empty a_history = Some s
  /\ words s 0 Compile (B "c") = Some [B "-Dg"; B "-Dh"; B "-Da"; B "-Db"; B "-Dd"] /\ words s 1 Compile (B "c") = Some [B "-Dg"; B "-Dh"; B "-Dsub"]
  /\ words s 0 Link (B "c") = Some [B "-la"; B "-ld"] /\ words s 0 Compile (B "cpp") = Some [B "-Dg"].
Proof. eexists. split; [reflexivity|]. repeat split; vm_compute; reflexivity. Qed.
Example ex_declared : declared_all a_declared a_history.
Proof. repeat constructor. Qed.
Example ex_refused : snd (step a_declared 1 (AddGlobal Compile [] [B "c"]) empty) = false /\ snd (step a_declared 0 (AddProject Compile [] [B "C"]) empty) = false.
Proof. split; reflexivity. Qed.

(** ** What does not hold *)
(** add_project_dependencies() is accepted whatever languages it is given; at the first that is not
    one of the project's, it ends without adding anything for those behind it. *)
Theorem C149_dependencies_refuted : forall declared p c l i x langs s, ~ known x ->
  step declared p (AddDeps c l i (x :: langs)) s = (set_project p (projects s p) s, true).
Proof.
  intros declared p c l i x langs s N. cbn [step add_deps]. destruct (language x) as [n|] eqn:E; [|reflexivity].
  destruct N. apply language_known. exists n. exact E.
Qed.
Print Assumptions C149_dependencies_refuted.
Theorem C149_dropped_refuted : exists declared h s l, run declared empty h = Some s /\ known l /\ words s 0 Compile l = Some [] /\ to_project 0 Compile l h <> [].
Proof.
  exists a_declared, [(0, AddDeps [B "-Dd"] [] [] [B "rust"; B "c"])]. eexists. exists (B "c"). split; [reflexivity|].
  split; [left; cbn [In]; tauto|]. split; [vm_compute; reflexivity|]. vm_compute. discriminate.
Qed.
Print Assumptions C149_dropped_refuted.
(** Names that are muon's own, like null or c_obj, are accepted as languages. *)
Theorem C149_names_refuted : forall declared p k args s, snd (step declared p (AddProject k args [B "null"; B "c_obj"]) s) = true.
Proof.
  intros declared p k args s. apply C149_accepted_partial; [discriminate|]. split; [|discriminate]. cbn [languages].
  repeat constructor; right; cbn [In]; tauto.
Qed.
Print Assumptions C149_names_refuted.
(** Whatever is named, only what is before the first language that is unknown or not one of the
    project's counts; together with [C149_words_partial] this says what every call adds. *)
Theorem C149_prefix_refuted : forall declared p c l i good x rest s, ~ known x \/ declared p x = false ->
  step declared p (AddDeps c l i (good ++ x :: rest)) s = step declared p (AddDeps c l i good) s.
Proof.
  intros declared p c l i good x rest s Bad. cbn [step]. f_equal. f_equal. generalize (projects s p). induction good as [|y good IH]; intros d; cbn [app add_deps].
  - destruct (language x) as [n|] eqn:E; [|reflexivity]. destruct Bad as [N| -> ]; [|reflexivity]. destruct N. apply language_known. exists n. exact E.
  - destruct (language y) as [n|]; [|reflexivity]. destruct (declared p y); [apply IH|reflexivity].
Qed.
Print Assumptions C149_prefix_refuted.
Example ex_prefix : a_declared 0 (B "cpp") = false /\ ~ known (B "rust").
Proof. split; [reflexivity|]. intros [H|H]; cbn [In] in H; repeat destruct H as [H|H]; try discriminate H; exact H. Qed.
