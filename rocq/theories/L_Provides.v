(** Lemmas about what wrap files provide. *)
From Verif Require Import Base M_Str S_Str L_Str P_Str M_Path M_Sha M_Wrap S_Wrap L_Wrap P_Wrap M_Provides S_Provides.
Local Arguments B _ : simpl never.

(** ** Lists of names *)
Lemma around_in : forall c, around c = true <-> In c (B " " ++ [NL; TAB]).
Proof.
  intros c. unfold around. rewrite !orb_true_iff, !ceqb_eq. change (B " ") with [" "%char]. cbn [app In].
  split; [intros [[-> | ->] | ->]; tauto|intros [<-|[<-|[<-|[]]]]; tauto].
Qed.

Lemma trim_left_drop : forall p r, Forall (fun c => around c = true) p -> trim_left (p ++ r) = trim_left r.
Proof. intros p r F. induction F as [|c p H F IH]; [reflexivity|]. cbn [app trim_left]. rewrite H. exact IH. Qed.

Lemma trim_left_stop : forall c t, around c = false -> trim_left (c :: t) = c :: t.
Proof. intros c t H. cbn [trim_left]. rewrite H. reflexivity. Qed.

Lemma strip_trim : forall s, str_strip s None = Some (trim s).
Proof.
  intros s. destruct (C21_strip s None) as (p & r & q & E & -> & Fp & Fq & A & Z). cbv zeta in *. rewrite E. f_equal.
  assert (Fp' : Forall (fun c => around c = true) p) by (eapply Forall_impl; [|exact Fp]; intros c; apply around_in).
  assert (Fq' : Forall (fun c => around c = true) q) by (eapply Forall_impl; [|exact Fq]; intros c; apply around_in).
  unfold trim. rewrite trim_left_drop by exact Fp'. destruct r as [|c t].
  - cbn [app]. rewrite <- (app_nil_r q), trim_left_drop by exact Fq'. reflexivity.
  - assert (Nc : around c = false).
    { destruct (around c) eqn:Ec; [|reflexivity]. apply around_in in Ec. destruct (A c t eq_refl Ec). }
    cbn [app]. rewrite trim_left_stop by exact Nc. rewrite app_comm_cons, rev_app_distr.
    rewrite trim_left_drop by (apply Forall_rev; exact Fq').
    destruct (exists_last (l := c :: t) ltac:(discriminate)) as (u & x & Eu). rewrite Eu, rev_app_distr. cbn [rev app].
    assert (Nx : around x = false).
    { destruct (around x) eqn:Ec; [|reflexivity]. apply around_in in Ec. destruct (Z u x Eu Ec). }
    rewrite trim_left_stop by exact Nx. cbn [rev]. rewrite rev_involutive. reflexivity.
Qed.

Lemma strip_each_all : forall l, strip_each l = Some (map trim l).
Proof. induction l as [|s l IH]; [reflexivity|]. cbn [strip_each map]. rewrite strip_trim, IH. reflexivity. Qed.

Lemma split_strip_names : forall v, split_strip v = Some (map trim (split_on ","%char v)).
Proof.
  intros v. unfold split_strip, str_split. change (B ",") with [","%char].
  destruct (split_loop_spec [","%char] (Datatypes.S (length v)) ltac:(discriminate) v [] [] ltac:(lia)) as (ps & E & L).
  { intros a b _. cbn. lia. }
  rewrite E. cbn [app] in *. rewrite strip_each_all. f_equal. f_equal.
  apply (leftmost_unique [","%char] v); [discriminate|exact L|apply split_single].
Qed.

(** ** Tables *)
Lemma tget_tset : forall k v t x, tget x (tset k v t) = if beqb k x then Some v else tget x t.
Proof.
  intros k v t x. induction t as [|[a y] t IH]; cbn [tset tget]; [reflexivity|].
  destruct (beqb_spec a k) as [->|N]; cbn [tget]; [destruct (beqb k x); reflexivity|].
  destruct (beqb_spec a x) as [->|N2]; [|exact IH].
  destruct (beqb_spec k x) as [->|]; [contradiction|reflexivity].
Qed.

Definition fills (t t' : table) (es : list (bytes * list bytes)) : Prop :=
  forall k, tget k t' = match last_about k es with Some v => Some v | None => tget k t end.

Lemma last_app : forall k a b, last_about k (a ++ b) = match last_about k b with Some v => Some v | None => last_about k a end.
Proof.
  intros k a b. induction a as [|[x v] a IH]; cbn [app last_about]; [destruct (last_about k b); reflexivity|].
  rewrite IH. destruct (last_about k b); reflexivity.
Qed.

Lemma fills_none : forall t, fills t t [].
Proof. intros t k. reflexivity. Qed.
Lemma fills_more : forall t1 t2 t3 a b, fills t1 t2 a -> fills t2 t3 b -> fills t1 t3 (a ++ b).
Proof. intros t1 t2 t3 a b A C k. rewrite C, last_app, A. destruct (last_about k b); reflexivity. Qed.
Lemma fills_set : forall k v t, fills t (tset k v t) [(k, v)].
Proof. intros k v t x. rewrite tget_tset. cbn [last_about]. destruct (beqb k x); reflexivity. Qed.
Lemma fills_names : forall name l t, fills t (add_provides name l t) (map (fun n => (n, [name])) l).
Proof.
  intros name l. induction l as [|n l IH]; intros t; [apply fills_none|]. cbn [map].
  change (add_provides name (n :: l) t) with (add_provides name l (tset n [name] t)).
  change ((n, [name]) :: map (fun n => (n, [name])) l) with ([(n, [name])] ++ map (fun n => (n, [name])) l).
  eapply fills_more; [apply fills_set|apply IH].
Qed.

(** ** The lines of a wrap *)
Definition said (kv : bytes * bytes) : Prop := fst kv <> [] /\ snd kv <> [].

Lemma lines_ok : forall name ls cur sec d e, in_order cur ls ->
  Forall (fun l : item => fst l <> None) ls ->
  Forall (fun s => In s [B "wrap-file"; B "wrap-git"; B "provide"]) (headers ls) ->
  (forall s, cur = Some s -> section_of s = Some sec) ->
  ((exists r, provides_lines name (sec, d, e) ls = Some r) <-> Forall said (provide_lines ls))
  /\ (forall sec' d' e', provides_lines name (sec, d, e) ls = Some (sec', d', e') ->
        fills d d' (deps_of name ls) /\ fills e e' (programs_of name ls)).
Proof.
  intros name ls. induction ls as [|[s kv] ls IH]; intros cur sec d e O Fs Fh Hc.
  - split; [split; [constructor|intros _; eexists; reflexivity]|]. intros sec' d' e' [= _ <- <-]. split; apply fills_none.
  - pose proof (Forall_inv Fs) as Ns. pose proof (Forall_inv_tail Fs) as Fs'. cbn [fst] in Ns. destruct s as [s|]; [|contradiction].
    destruct kv as [[k v]|].
    + cbn [in_order] in O. destruct O as (Ec & O). subst cur. pose proof (Hc s eq_refl) as Ss.
      assert (Fh' : Forall (fun s => In s [B "wrap-file"; B "wrap-git"; B "provide"]) (headers ls)) by exact Fh.
      destruct (section_cases s _ Ss) as [(E1 & E2)|(E1 & E2 & _)].
      * subst sec s. assert (Ep : provide_lines (@cons item (Some (B "provide"), Some (k, v)) ls) = (k, v) :: provide_lines ls).
        { cbn [provide_lines flat_map]. rewrite beqb_refl. reflexivity. }
        rewrite Ep. unfold deps_of, programs_of. rewrite Ep. cbn [provides_lines provides_cb flat_map].
        destruct (beqb_spec k []) as [->|Nk].
        { split; [split; [intros (r & [=])|intros F; destruct (Forall_inv F) as (X & _); cbn in X; congruence]|discriminate]. }
        destruct (beqb_spec v []) as [->|Nv].
        { split; [split; [intros (r & [=])|intros F; destruct (Forall_inv F) as (_ & X); cbn in X; congruence]|discriminate]. }
        cbn [orb]. assert (Fc : Forall said ((k, v) :: provide_lines ls) <-> Forall said (provide_lines ls)).
        { split; [apply Forall_inv_tail|intros F; constructor; [split; assumption|exact F]]. }
        rewrite Fc. rewrite split_strip_names.
        destruct (beqb_spec k (B "dependency_names")) as [->|N1].
        { change (beqb (B "dependency_names") (B "program_names")) with false. cbv iota.
          destruct (IH (Some (B "provide")) TProvide (add_provides name (map trim (split_on ","%char v)) d) e O Fs' Fh' Hc) as (A & C).
          split; [exact A|]. intros sec' d' e' H. destruct (C _ _ _ H) as (C1 & C2). split; [|exact C2].
          eapply fills_more; [|exact C1]. unfold listed_names. rewrite <- map_map with (f := trim) (g := fun n => (n, [name])).
          apply fills_names. }
        destruct (beqb_spec k (B "program_names")) as [->|N2].
        { destruct (IH (Some (B "provide")) TProvide d (add_provides name (map trim (split_on ","%char v)) e) O Fs' Fh' Hc) as (A & C).
          split; [exact A|]. intros sec' d' e' H. destruct (C _ _ _ H) as (C1 & C2). split; [exact C1|].
          eapply fills_more; [|exact C2]. unfold listed_names. rewrite <- map_map with (f := trim) (g := fun n => (n, [name])).
          apply fills_names. }
        destruct (IH (Some (B "provide")) TProvide (tset k [name; v] d) e O Fs' Fh' Hc) as (A & C).
        split; [exact A|]. intros sec' d' e' H. destruct (C _ _ _ H) as (C1 & C2). split; [|exact C2].
        eapply fills_more; [apply fills_set|exact C1].
      * assert (Ep : provide_lines (@cons item (Some s, Some (k, v)) ls) = provide_lines ls).
        { cbn [provide_lines flat_map]. rewrite E2. reflexivity. }
        unfold deps_of, programs_of. rewrite Ep. cbn [provides_lines provides_cb].
        assert (Es : provides_lines name (sec, d, e) (@cons line (Some s, Some (k, v)) ls) = provides_lines name (sec, d, e) ls).
        { cbn [provides_lines provides_cb]. destruct sec; [reflexivity|reflexivity|contradiction]. }
        cbn [provides_lines provides_cb] in Es. rewrite Es. exact (IH (Some s) sec d e O Fs' Fh' Hc).
    + cbn [in_order] in O. destruct O as (_ & O).
      assert (Fh' : Forall (fun s => In s [B "wrap-file"; B "wrap-git"; B "provide"]) (s :: headers ls)) by exact Fh.
      pose proof (Forall_inv Fh') as Ks. apply section_known in Ks. destruct (section_of s) as [t|] eqn:Es; [|contradiction].
      cbn [provides_lines provides_cb]. rewrite Es.
      exact (IH (Some s) t d e O Fs' (Forall_inv_tail Fh') ltac:(intros s' [= <-]; exact Es)).
Qed.

Lemma provides_stays : forall ls c c', parse_lines c ls = Some c' -> has_provides c = true -> has_provides c' = true.
Proof.
  induction ls as [|l ls IH]; intros c c' H P; cbn [parse_lines] in H; [congruence|].
  destruct (parse_cb c l) as [c1|] eqn:E; [|discriminate]. apply (IH c1 c' H). clear H IH.
  unfold parse_cb in E. destruct l as [[s|] [[k v]|]]; try discriminate.
  - destruct (in_section c); [| |congruence]; (destruct (negb _); [discriminate|]); (destruct (has k (fields c)); [discriminate|]);
      injection E as <-; exact P.
  - destruct (section_of s) as [[]|]; try discriminate; try (destruct (have_type c); [discriminate|]); injection E as <-; try exact P; reflexivity.
Qed.

Lemma provides_none : forall ls cur c c', in_order cur ls -> cur <> Some (B "provide") -> parse_lines c ls = Some c' ->
  has_provides c' = false -> provide_lines ls = [].
Proof.
  induction ls as [|[s kv] ls IH]; intros cur c c' O Nc H P; [reflexivity|]. cbn [parse_lines] in H.
  destruct (parse_cb c (s, kv)) as [c1|] eqn:E; [|discriminate]. destruct kv as [kv|]; cbn [in_order] in O; destruct O as (Oc & O).
  - subst s. cbn [provide_lines flat_map]. fold (provide_lines ls). rewrite (IH cur c1 c' O Nc H P).
    destruct cur as [s|]; [|reflexivity]. destruct (beqb_spec s (B "provide")) as [->|]; [contradiction|reflexivity].
  - destruct s as [s|]; [|contradiction]. cbn [provide_lines flat_map app]. apply (IH (Some s) c1 c' O); [|exact H|exact P].
    intros [= ->]. cbn [parse_cb] in E. change (section_of (B "provide")) with (Some TProvide) in E. cbv iota in E. injection E as <-.
    pose proof (provides_stays _ _ _ H eq_refl). congruence.
Qed.

(** ** Files *)
Lemma wrap_ends : forall f, str_endswith f (B ".wrap") = match wrap_name f with Some _ => true | None => false end.
Proof.
  intros f. unfold str_endswith, wrap_name. change (length (B ".wrap")) with 5.
  destruct (Nat.ltb_spec (length f) 5) as [L|L].
  - destruct (beqb_spec (firstn (length f - 5) f ++ B ".wrap") f) as [E|]; [|reflexivity]. exfalso.
    assert (X : length (firstn (length f - 5) f ++ B ".wrap") = length f) by (f_equal; exact E).
    rewrite app_length in X. change (length (B ".wrap")) with 5 in X. lia.
  - destruct (beqb_spec (skipn (length f - 5) f) (B ".wrap")) as [E|N].
    + rewrite <- E, firstn_skipn, beqb_refl. reflexivity.
    + destruct (beqb_spec (firstn (length f - 5) f ++ B ".wrap") f) as [E|]; [|reflexivity]. exfalso. apply N.
      rewrite <- E at 2. rewrite skipn_app. rewrite firstn_length, Nat.min_l by lia. rewrite Nat.sub_diag.
      rewrite skipn_all2 by (rewrite firstn_length; lia). reflexivity.
Qed.

Lemma load_one : forall t f, (forall ls, snd f = Some (Some ls) -> in_order None ls) ->
  ((exists t', load_iter t f = Some t') <-> entry_ok f)
  /\ (forall t', load_iter t f = Some t' ->
        fills (fst t) (fst t') (entry_gives deps_of f) /\ fills (snd t) (snd t') (entry_gives programs_of f)).
Proof.
  intros [d e] [file content] O. cbn [snd fst] in *. unfold load_iter, entry_ok, entry_gives. cbn [fst snd]. rewrite wrap_ends.
  destruct (wrap_name file) as [n|] eqn:En; cbn [negb].
  2:{ split; [split; [intros _ n [=]|intros _; eexists; reflexivity]|]. intros t' [= <-]. split; apply fills_none. }
  assert (Ef : firstn (length file - 5) file = n).
  { unfold wrap_name in En. destruct (beqb _ _); [congruence|discriminate]. }
  destruct content as [[ls|]|].
  - specialize (O ls eq_refl). pose proof (C142_accepted ls O) as Acc. destruct (wrap_parse ls) as [c|] eqn:Ew.
    2:{ split; [|discriminate]. split; [intros (t' & [=])|]. intros H. destruct (H n eq_refl) as (H1 & _).
        apply Acc in H1 as (c & [=]). }
    pose proof (proj1 Acc (ex_intro _ c eq_refl)) as Ac. pose proof Ac as (A1 & A2 & _).
    destruct (has_provides c) eqn:Ep; cbn [negb].
    + rewrite Ef. destruct (lines_ok n ls None TFile d e O A1 A2 ltac:(discriminate)) as (L1 & L2).
      destruct (provides_lines n (TFile, d, e) ls) as [[[sec d'] e']|] eqn:El.
      * split; [split; [intros _ n' [= <-]; split; [exact Ac|]; apply L1; eexists; reflexivity|intros _; eexists; reflexivity]|].
        intros t' [= <-]. cbn [fst snd]. exact (L2 sec d' e' eq_refl).
      * split; [|discriminate]. split; [intros (t' & [=])|]. intros H. destruct (H n eq_refl) as (_ & H1). apply L1 in H1 as (r & [=]).
    + unfold wrap_parse in Ew. destruct (parse_lines ctx0 ls) as [c1|] eqn:E1; [|discriminate].
      destruct (validate c1); [|discriminate]. assert (c1 = c) by congruence. subst c1.
      pose proof (provides_none ls None ctx0 c O ltac:(discriminate) E1 Ep) as Pn.
      split; [split; [intros _ n' _; split; [exact Ac|]; rewrite Pn; constructor|intros _; eexists; reflexivity]|].
      intros t' [= <-]. unfold deps_of, programs_of. rewrite Pn. split; apply fills_none.
  - split; [|discriminate]. split; [intros (t' & [=])|]. intros H. destruct (H n eq_refl).
  - split; [split; [intros _ n' _; exact I|intros _; eexists; reflexivity]|]. intros t' [= <-]. split; apply fills_none.
Qed.

Lemma load_each : forall fs t, Forall (fun f : entry => forall ls, snd f = Some (Some ls) -> in_order None ls) fs ->
  ((exists t', load_from t fs = Some t') <-> Forall entry_ok fs)
  /\ (forall t', load_from t fs = Some t' ->
        fills (fst t) (fst t') (flat_map (entry_gives deps_of) fs) /\ fills (snd t) (snd t') (flat_map (entry_gives programs_of) fs)).
Proof.
  induction fs as [|f fs IH]; intros t F; cbn [load_from flat_map].
  - split; [split; [constructor|intros _; eexists; reflexivity]|]. intros t' [= <-]. split; apply fills_none.
  - destruct (load_one t f (Forall_inv F)) as (A & C). destruct (load_iter t f) as [t1|] eqn:E.
    + destruct (IH t1 (Forall_inv_tail F)) as (A1 & C1). destruct (C t1 eq_refl) as (D1 & D2). split.
      * rewrite A1. split; [intros G; constructor; [apply A; eexists; reflexivity|exact G]|apply Forall_inv_tail].
      * intros t' H. destruct (C1 t' H) as (G1 & G2). split; eapply fills_more; eassumption.
    + split; [|discriminate]. split; [intros (t' & [=])|]. intros G. destruct (proj2 A (Forall_inv G)) as (t' & [=]).
Qed.

Lemma last_one : forall (ent : entry -> list (bytes * list bytes)) k v f0 fs,
  (forall f, In f fs -> f = f0 \/ last_about k (ent f) = None) ->
  (last_about k (flat_map ent fs) = Some v <-> In f0 fs /\ last_about k (ent f0) = Some v).
Proof.
  intros ent k v f0 fs. induction fs as [|f fs IH]; intros H; cbn [flat_map].
  - split; [discriminate|intros ([] & _)].
  - rewrite last_app. assert (IH' := IH (fun g I => H g (or_intror I))). destruct (last_about k (flat_map ent fs)) as [x|] eqn:E.
    + assert (X : In f0 fs /\ last_about k (ent f0) = Some x).
      { clear - E H. assert (H' := fun g I => H g (or_intror I)). clear H. induction fs as [|g fs IH]; [discriminate|].
        cbn [flat_map] in E. rewrite last_app in E. destruct (last_about k (flat_map ent fs)) as [y|].
        - destruct (IH E (fun h I => H' h (or_intror I))) as (I & L). split; [right; exact I|exact L].
        - destruct (H' g (or_introl eq_refl)) as [-> | N]; [split; [left; reflexivity|exact E]|congruence]. }
      destruct X as (I & L). rewrite L. split; [intros Ev; split; [right; exact I|exact Ev]|intros (_ & Ev); exact Ev].
    + destruct (H f (or_introl eq_refl)) as [-> | N].
      * split; [intros Ev; split; [left; reflexivity|exact Ev]|intros (_ & Ev); exact Ev].
      * rewrite N. split; [discriminate|]. intros ([-> | I] & Ev); [congruence|]. apply IH'. split; assumption.
Qed.
