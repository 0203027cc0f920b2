From Verif Require Import Base M_Tree S_Tree L_Tree M_Escape L_Escape M_Env S_Env L_Env M_Canon S_Path L_Path L_Canon P_Canon M_Format S_Format L_Format M_Manifest S_Manifest L_Manifest L_Meaning.
Local Arguments B _ : simpl never.
Local Arguments mem_char : simpl never.

(** ** Reading one statement *)
Lemma spelled_begins x w r : spelled x w -> begins (w ++ r).
Proof.
  intros H. right. destruct H as [n v w Hn Hl| | | |].
  - destruct (let_line_head _ w Hl) as (c & t & -> & Hc). cbn [app]. eauto.
  - eexists _, _. split; [reflexivity|reflexivity].
  - eexists _, _. split; [reflexivity|reflexivity].
  - eexists _, _. split; [reflexivity|reflexivity].
  - eexists _, _. split; [reflexivity|reflexivity].
Qed.
Lemma word_then k b r : forallb name_char k = true -> k <> [] -> blanks b -> no_space r -> (b = [] -> forall c t, r = c :: t -> isvar c = false) ->
  scan_name (k ++ b ++ r) = Some (k, r).
Proof. intros H1 H2 H3 H4 H5. apply scan_name_bs; auto. now split. Qed.

(** the name and the variables of a rule or a pool *)
Lemma head_block k b n b' e vs w f t : blanks b -> b <> [] -> a_name n -> blanks b' -> eol e -> block vs w -> filler f -> begins t ->
  forallb name_char k = true -> k <> [] ->
  exists m m' f', filler f' /\ scan_name ((k ++ b ++ n ++ b' ++ e ++ w) ++ f ++ t) = Some (k, m) /\ scan_name m = Some (n, m') /\
    exists m'', scan_newline m' = Some m'' /\ lets (S (length m'')) m'' [] = Ok (given vs, f' ++ t).
Proof.
  intros Hb Hne Hn Hb' He Hbl Hf Ht Hk Hk'. exists (n ++ b' ++ e ++ w ++ f ++ t), (e ++ w ++ f ++ t).
  destruct (lets_block vs w Hbl f t (S (length (w ++ f ++ t))) [] Hf Ht) as (f' & Hf' & E); [lia|].
  exists f'. split; [auto|]. split; [|split].
  - rewrite <- !app_assoc. apply word_then; auto; [now apply no_space_name|congruence].
  - apply scan_name_bs; auto; [now apply no_space_eol|]. intros _ c q Eq. destruct He as [-> | ->]; injection Eq as <- _; reflexivity.
  - exists (w ++ f ++ t). split; [now apply scan_newline_eol|]. exact E.
Qed.

Definition reads (x : stmt) (k m : bytes) (f t : bytes) : Prop :=
  match x with
  | SVar n v => k = n /\ ~ In n words_of_the_language /\ parselet m = Ok (pieces_of v, f ++ t)
  | SRule n vs => k = B "rule" /\ exists m' m'', scan_name m = Some (n, m') /\ scan_newline m' = Some m'' /\ lets (S (length m'')) m'' [] = Ok (given vs, f ++ t)
  | SPool n vs => k = B "pool" /\ exists m' m'', scan_name m = Some (n, m') /\ scan_newline m' = Some m'' /\ lets (S (length m'')) m'' [] = Ok (given vs, f ++ t)
  | SBuild outs outimp rule ins imp ord vs => k = B "build" /\ outs <> [] /\ exists m',
      parse_edge m = Some ({| e_outs := map pieces_of outs; e_outimp := map pieces_of outimp; e_rule := rule;
             e_ins := map pieces_of ins; e_imp := map pieces_of imp; e_ord := map pieces_of ord |}, m') /\ lets (S (length m')) m' [] = Ok (given vs, f ++ t)
  | SDefault ps => k = B "default" /\ exists m', scan_paths m = Some (map pieces_of ps, m') /\ scan_newline m' = Some (f ++ t)
  end.
Lemma spelled_reads x w f t : spelled x w -> filler f -> begins t ->
  exists k m f', scan_name (w ++ f ++ t) = Some (k, m) /\ filler f' /\ reads x k m f' t.
Proof.
  intros Hx Hf Ht. destruct Hx as [n v w Hn Hl|b n b' e vs w H1 H2 H3 H4 H5 H6|b n b' e vs w H1 H2 H3 H4 H5 H6|
    b outs wo outimp wo' b' rule b'' ins wi imp wi' ord wi'' e vs w H1 H2 H3 H4 H5 H6 H7 H8 H9 H10 H11 H12 H13 H14|b ps w e H1 H2 H3 H4].
  - destruct (let_line_ok n v w (f ++ t) Hl) as (m & E1 & E2). exists n, m, f. cbn [reads]. auto.
  - destruct (head_block (B "rule") b n b' e vs w f t) as (m & m' & f' & Hf' & E1 & E2 & m'' & E3 & E4); auto; [discriminate|].
    exists (B "rule"), m, f'. cbn [reads]. eauto 10.
  - destruct (head_block (B "pool") b n b' e vs w f t) as (m & m' & f' & Hf' & E1 & E2 & m'' & E3 & E4); auto; [discriminate|].
    exists (B "pool"), m, f'. cbn [reads]. eauto 10.
  - destruct (lets_block vs w H14 f t (S (length (w ++ f ++ t))) [] Hf Ht) as (f' & Hf' & E); [lia|].
    exists (B "build"), (wo ++ wo' ++ B ":" ++ b' ++ rule ++ b'' ++ wi ++ wi' ++ wi'' ++ e ++ w ++ f ++ t), f'.
    split; [|split; [auto|]].
    + replace ((B "build" ++ b ++ wo ++ wo' ++ B ":" ++ b' ++ rule ++ b'' ++ wi ++ wi' ++ wi'' ++ e ++ w) ++ f ++ t)
        with (B "build" ++ b ++ wo ++ (wo' ++ B ":" ++ b' ++ rule ++ b'' ++ wi ++ wi' ++ wi'' ++ e ++ w ++ f ++ t)) by (rewrite <- !app_assoc; reflexivity).
      apply word_then; auto; [discriminate| |congruence].
      apply (paths_space outs); auto. apply (section_ends (B "|") outimp); auto; [unfold B; cbn; eauto|]. eexists _, _. split; [reflexivity|]. auto.
    + cbn [reads]. split; [reflexivity|]. split; [auto|]. exists (w ++ f ++ t). split; [now apply parse_edge_ok|]. exact E.
  - exists (B "default"), (w ++ e ++ f ++ t), f. split; [|split; [auto|]].
    + rewrite <- !app_assoc. apply word_then; auto; [discriminate|apply (paths_space ps); auto; now apply ends_eol|].
      intros Hz c q E. rewrite (H2 Hz) in H3. inversion H3; subst. cbn [app] in E. destruct H4 as [-> | ->]; injection E as <- _; reflexivity.
    + cbn [reads]. split; [reflexivity|]. exists (e ++ f ++ t). split; [apply scan_paths_ok; auto; now apply ends_eol|]. now apply scan_newline_eol.
Qed.

Lemma var_statement n : ~ In n words_of_the_language -> forall dup st l, statement dup st n l = parsevar st n l.
Proof.
  intros H dup st l. unfold statement. unfold words_of_the_language in H. cbn [In] in H.
  assert (X : forall k, In k words_of_the_language -> beqb n k = false).
  { intros k Hk. destruct (beqb_spec n k) as [->|]; [|reflexivity]. exfalso. apply H. exact Hk. }
  unfold words_of_the_language in X. cbn [In] in X. rewrite !X by tauto. reflexivity.
Qed.

(** ** Statements that are right *)
Lemma eval_given s st vs : in_scopes [vars s] [ms_vars st] ->
  map (fun kv => (fst kv, enveval [ms_vars st] (snd kv))) (given vs) = map (fun x => (fst x, expand [vars s] (snd x))) vs.
Proof. intros R. unfold given. rewrite map_map. apply map_ext. intros [k v]. cbn [fst snd]. now rewrite (eval_expand _ _ v R). Qed.
Lemma scope_of s st : holds s st -> in_scopes [vars s] [ms_vars st].
Proof. intros H. constructor; [exact (H_vars s st H)|constructor]. Qed.

Lemma statement_right x k m f t s st s' : holds s st -> reads x k m f t -> step nodepath s x s' ->
  exists st', statement false st k m = Ok (st', f ++ t) /\ holds s' st'.
Proof.
  intros H R Hs. pose proof (scope_of s st H) as Sc.
  destruct Hs as [n v Hv|n vs H1 H2 H3|n vs d H1 H2|outs outimp rule ins imp ord vs b H1 H2 H3 P1 P2 P3 P4 P5 H4 H5 H6 H7|ps qs P H1]; cbn [reads] in R.
  - destruct R as (-> & Hn & E). rewrite (var_statement n Hn). unfold parsevar. rewrite E. cbn [bindm]. rewrite (eval_expand _ _ v Sc).
    destruct (insert_next (vars s) (ms_vars st) n (expand [vars s] v) (H_vars s st H)) as (t' & E1 & E2).
    assert (C : beqb n (B "ninja_required_version") && negb (checkversion (expand [vars s] v)) = false).
    { destruct (beqb_spec n (B "ninja_required_version")) as [->|]; [|reflexivity]. destruct (Hv eq_refl) as (a & i & V & L).
      rewrite (checkversion_spec _ a i V). cbn [andb]. destruct (Z.ltb_spec 1 a), (Z.eqb_spec a 1), (Z.ltb_spec 9 i); cbn; try lia; reflexivity. }
    rewrite C, E1. cbn [bindm]. eexists. split; [reflexivity|]. destruct H as [A1 A2 A3 A4 A5]. constructor; cbn; auto. apply (Forall2_more s); [auto|exact A3].
  - destruct R as (-> & m' & m'' & E1 & E2 & E3). change (statement false st (B "rule") m) with (parserule st m). unfold parserule.
    rewrite E1. cbn [lift bindm]. rewrite E2. cbn [lift bindm]. rewrite E3. cbn [bindm].
    rewrite (proj2 (sets_has (B "command") vs) H2). cbn [negb].
    set (h1 := existsb _ (given vs)). set (h2 := existsb _ (given vs)).
    assert (Hh : Bool.eqb h1 h2 = true).
    { assert (X : h1 = true <-> h2 = true) by (unfold h1, h2; rewrite !sets_has; exact H3).
      destruct h1, h2; auto; [destruct X as [X _]; discriminate (X eq_refl)|destruct X as [_ X]; discriminate (X eq_refl)]. }
    rewrite Hh. cbn [negb]. clear h1 h2 Hh.
    destruct (inserts_all (given vs)) as (r & Er & Ir). rewrite Er. cbn [bindm].
    destruct (H_rules s st H) as (rs & Irs & F). destruct (insert_next rs (ms_rules st) n r Irs) as (rt & E4 & E5).
    assert (L : last_value rs n = None).
    { pose proof (rule_lookup s st n H) as X. rewrite H1 in X. destruct (insert_all_find _ _ _ Irs) as [_ Y]. now rewrite <- Y. }
    rewrite E4, L. cbn [bindm]. eexists. split; [reflexivity|]. destruct H as [A1 A2 A3 A4 A5]. constructor; cbn; auto.
    + exists (rs ++ [(n, r)]). split; [exact E5|]. apply Forall2_app; [exact F|]. constructor; [|constructor]. split; [reflexivity|]. exact Ir.
    + apply (Forall2_more s); [|exact A3]. cbn [rules]. intros q vs' Hq. rewrite last_value_app, last_value_one. destruct (beqb_spec n q) as [<-|]; [congruence|exact Hq].
  - destruct R as (-> & m' & m'' & E1 & E2 & E3). change (statement false st (B "pool") m) with (parsepool st m). unfold parsepool.
    rewrite E1. cbn [lift bindm]. destruct (insert_next (pools s) (ms_pools st) n 0%Z (H_pools s st H)) as (t0 & E4 & _). rewrite E4, H1. cbn [bindm].
    rewrite E2. cbn [lift bindm]. rewrite E3. cbn [bindm]. destruct (depth_ok s st vs d H H2) as [E5 Hd]. rewrite E5. cbn [bindm].
    destruct (Z.eqb_spec d 0) as [->|_]; [lia|].
    destruct (insert_next (pools s) (ms_pools st) n d (H_pools s st H)) as (t1 & E6 & I6). rewrite E6. cbn [bindm]. eexists. split; [reflexivity|].
    destruct H as [A1 A2 A3 A4 A5]. constructor; cbn; auto. apply (Forall2_more s); [auto|exact A3].
  - destruct R as (-> & Ho & m' & E1 & E2). change (statement false st (B "build") m) with (parseedge false st m). unfold parseedge.
    rewrite E1. cbn [lift bindm e_rule e_outs e_outimp e_ins e_imp e_ord].
    pose proof (rule_lookup s st rule H) as X. destruct (last_value (rules s) rule) as [rvs|] eqn:Er; [|congruence]. destruct X as (r & Fr & Ir). rewrite Fr, E2. cbn [bindm].
    rewrite (eval_given s st vs Sc), <- H3. destruct (inserts_all (b_vars b)) as (own & Eo & Io). rewrite Eo. cbn [bindm].
    assert (Sc2 : in_scopes [b_vars b; vars s] [own; ms_vars st]) by (constructor; [exact Io|exact Sc]).
    rewrite <- map_app, (nodes_ok _ _ _ _ Sc2 (places_app _ _ _ _ _ P1 P2)). cbn [bindm].
    rewrite outputs_fresh; [|exact H4|].
    2:{ intros p Hp. apply not_true_is_false. intros G. apply (generated_spec s st p H) in G as (b' & Hb' & Hin). exact (H5 p b' Hp Hb' Hin). }
    cbn [app bindm]. rewrite <- !map_app, (nodes_ok _ _ _ _ Sc2 (places_app _ _ _ _ _ P3 (places_app _ _ _ _ _ P4 P5))). cbn [bindm].
    rewrite !map_length, (places_length _ _ _ P1), (places_length _ _ _ P3), (places_length _ _ _ (places_app _ _ _ _ _ P3 P4)).
    set (e := fun p => MEdge (b_outs b ++ b_outimp b) (length (b_outs b)) (b_ins b ++ b_imp b ++ b_ord b) (length (b_ins b)) (length (b_ins b ++ b_imp b)) rule r own p).
    cbv zeta. change (var_edge st (MEdge _ _ _ _ _ _ _ _ None)) with (var_edge st (e None)).
    assert (Hh : forall s0, rules s0 = rules s -> edge_holds s0 b (e (b_pool b))).
    { intros s0 Es0. constructor; cbn; auto. exists rvs. rewrite Es0. split; [now rewrite H2|exact Ir]. }
    assert (Rp : represents (sees s b) (var_edge st (e None))) by exact (edge_represents s st b (e (b_pool b)) H (Hh s eq_refl)).
    destruct Rp as [R1 R2 R3 R4 R5].
    assert (V : edgevar (var_edge st (e None)) true (B "pool") = Val (b_pool b)).
    { pose proof (edgevar_total (sees s b) (var_edge st (e None)) true (Build_represents _ _ R1 R2 R3 R4 R5) (B "pool")) as T.
      destruct (edgevar (var_edge st (e None)) true (B "pool")) as [v'|c|].
      - f_equal. exact (proj1 (value_unique _ _) (B "pool") v' T _ H6).
      - exfalso. now apply (value_not_circular _ _ _ _ H6).
      - contradiction. }
    rewrite V.
    assert (D : holds (Said (vars s) (rules s) (builds s ++ [b]) (defaults s) (pools s))
      (MState (ms_vars st) (ms_rules st) (ms_edges st ++ [e (b_pool b)]) (ms_defaults st) (ms_pools st))).
    { destruct H as [A1 A2 A3 A4 A5]. constructor; cbn; auto. apply Forall2_app; [apply (Forall2_more s); [auto|exact A3]|]. constructor; [now apply Hh|constructor]. }
    destruct (b_pool b) as [p|] eqn:Ep.
    + pose proof (H7 p eq_refl) as Hp. destruct (insert_all_find _ _ _ (H_pools s st H)) as [_ Y]. rewrite Y. destruct (last_value (pools s) p); [|congruence]. eauto.
    + eauto.
  - destruct R as (-> & m' & E1 & E2). change (statement false st (B "default") m) with (parsedefault st m). unfold parsedefault.
    rewrite E1. cbn [lift bindm]. rewrite (nodes_ok _ _ _ _ Sc P). cbn [bindm].
    assert (K : forallb (known (ms_edges st)) qs = true) by (apply forallb_forall; intros q Hq; apply (known_spec s st q H); auto).
    rewrite K. cbn [negb]. rewrite E2. cbn [lift bindm]. eexists. split; [reflexivity|]. destruct H as [A1 A2 A3 A4 A5]. constructor; cbn; auto.
    + apply (Forall2_more s); [auto|exact A3].
    + now rewrite A4.
Qed.

(** ** Statements that are wrong *)
Lemma depth_exits env vs z : (exists d, depth env vs z = Ok d) \/ depth env vs z = Exit.
Proof.
  revert z. induction vs as [|[k v] vs IH]; intros z; [left; now exists z|]. cbn [depth]. destruct (beqb k (B "depth")); [|now right].
  destruct (strtol (enveval env v)) as [n [|c r]]; [apply IH|now right].
Qed.
Lemma depth_other env vs x : In x vs -> fst x <> B "depth" -> forall z, depth env vs z = Exit.
Proof.
  induction vs as [|[k v] vs IH]; intros Hin Hx z; [destruct Hin|]. cbn [depth]. destruct Hin as [<-|Hin].
  - cbn [fst] in Hx. destruct (beqb_spec k (B "depth")); [congruence|reflexivity].
  - destruct (beqb k (B "depth")); [|reflexivity]. destruct (strtol (enveval env v)) as [n [|c r]]; [apply IH; auto|reflexivity].
Qed.
Lemma outputs_exits es ps : forall acc k, (exists r, outputs false es ps acc k = Ok r) \/ outputs false es ps acc k = Exit.
Proof. induction ps as [|p ps IH]; intros acc k; cbn [outputs]; [left; eauto|]. destruct (generated es p || existsb (beqb p) acc); [now right|apply IH]. Qed.
Lemma outputs_ok es ps : forall acc k r, outputs false es ps acc k = Ok r -> r = (acc ++ ps, k).
Proof.
  induction ps as [|p ps IH]; intros acc k r E; cbn [outputs] in E; [injection E as <-; now rewrite app_nil_r|].
  destruct (generated es p || existsb (beqb p) acc); [discriminate|]. apply IH in E. now rewrite <- app_assoc in E.
Qed.

Lemma statement_wrong x k m f t s st : holds s st -> reads x k m f t -> wrong nodepath s x -> statement false st k m = Exit.
Proof.
  intros H R Hw. pose proof (scope_of s st H) as Sc.
  assert (RULE : forall n vs, reads (SRule n vs) k m f t -> (last_value (rules s) n <> None \/ ~ sets (B "command") vs \/ ~ (sets (B "rspfile") vs <-> sets (B "rspfile_content") vs)) ->
    statement false st k m = Exit).
  { clear x R Hw. intros n vs R Hw. cbn [reads] in R. destruct R as (-> & m' & m'' & E1 & E2 & E3).
    change (statement false st (B "rule") m) with (parserule st m). unfold parserule.
    rewrite E1. cbn [lift bindm]. rewrite E2. cbn [lift bindm]. rewrite E3. cbn [bindm].
    rewrite <- (sets_has (B "command") vs), <- (sets_has (B "rspfile") vs), <- (sets_has (B "rspfile_content") vs) in Hw.
    destruct (existsb (fun kv => beqb (fst kv) (B "command") && _) (given vs)); cbn [negb]; [|reflexivity].
    destruct (existsb (fun kv => beqb (fst kv) (B "rspfile") && _) (given vs)), (existsb (fun kv => beqb (fst kv) (B "rspfile_content") && _) (given vs)); cbn [Bool.eqb negb]; try reflexivity.
    all: destruct (inserts_all (given vs)) as (r & Er & Ir); rewrite Er; cbn [bindm].
    all: destruct (H_rules s st H) as (rs & Irs & F); destruct (insert_next rs (ms_rules st) n r Irs) as (rt & E4 & E5); rewrite E4; cbn [bindm].
    all: destruct Hw as [Hw|[Hw|Hw]]; [|now destruct Hw|now destruct Hw].
    all: pose proof (rule_lookup s st n H) as X; destruct (insert_all_find _ _ _ Irs) as [_ Y]; rewrite Y in X; destruct (last_value (rules s) n); [|congruence]; destruct X as (r' & -> & _); reflexivity. }
  assert (POOL : forall n vs, reads (SPool n vs) k m f t -> (last_value (pools s) n <> None \/ (exists x, In x vs /\ fst x <> B "depth") \/ vs = []) ->
    statement false st k m = Exit).
  { clear x R Hw RULE. intros n vs R Hw. cbn [reads] in R. destruct R as (-> & m' & m'' & E1 & E2 & E3).
    change (statement false st (B "pool") m) with (parsepool st m). unfold parsepool.
    rewrite E1. cbn [lift bindm]. destruct (insert_next (pools s) (ms_pools st) n 0%Z (H_pools s st H)) as (t0 & E4 & _). rewrite E4. cbn [bindm].
    destruct (last_value (pools s) n); [reflexivity|].
    rewrite E2. cbn [lift bindm]. rewrite E3. cbn [bindm]. destruct Hw as [Hw|[([k' v] & Hin & Hk)| ->]]; [congruence| |].
    - rewrite (depth_other _ (given vs) (k', pieces_of v)); [reflexivity|unfold given; apply in_map_iff; exists (k', v); auto|exact Hk].
    - reflexivity. }
  destruct Hw as [v a i V L|n vs H1|n vs H1|n vs H1|n vs H1|n vs x Hin Hx|n|outs outimp rule ins imp ord vs H1|outs outimp rule ins imp ord vs own o Eo P H1|
    outs outimp rule ins imp ord vs b H1 H2 P1 P2 H3|ps qs q P Hin Hq].
  - cbn [reads] in R. destruct R as (-> & Hn & E). rewrite (var_statement _ Hn). unfold parsevar. rewrite E. cbn [bindm]. rewrite (eval_expand _ _ v Sc).
    rewrite beqb_refl, (checkversion_spec _ a i V). cbn [andb]. destruct (Z.ltb_spec 1 a), (Z.eqb_spec a 1), (Z.ltb_spec 9 i); cbn; try lia; reflexivity.
  - eapply RULE; eauto.
  - eapply RULE; eauto.
  - eapply RULE; eauto.
  - eapply POOL; eauto.
  - eapply POOL; eauto.
  - eapply POOL; eauto.
  - cbn [reads] in R. destruct R as (-> & Ho & m' & E1 & E2). change (statement false st (B "build") m) with (parseedge false st m). unfold parseedge.
    rewrite E1. cbn [lift bindm e_rule]. pose proof (rule_lookup s st rule H) as X. rewrite H1 in X. now rewrite X.
  - cbn [reads] in R. destruct R as (-> & Ho & m' & E1 & E2). change (statement false st (B "build") m) with (parseedge false st m). unfold parseedge.
    rewrite E1. cbn [lift bindm e_rule e_outs e_outimp e_ins e_imp e_ord]. destruct (treefind (ms_rules st) rule) as [r|]; [|reflexivity].
    rewrite E2. cbn [bindm]. rewrite (eval_given s st vs Sc), <- Eo. destruct (inserts_all own) as (ot & Et & It). rewrite Et. cbn [bindm].
    assert (Sc2 : in_scopes [own; vars s] [ot; ms_vars st]) by (constructor; [exact It|exact Sc]).
    rewrite <- map_app, (nodes_ok _ _ _ _ Sc2 P). cbn [bindm]. rewrite outputs_twice; [reflexivity|constructor|].
    destruct H1 as [H1|(p & b & Hp & Hb & Hin)]; [left; exact H1|right]. exists p. split; [auto|]. apply (generated_spec s st p H). eauto.
  - cbn [reads] in R. destruct R as (-> & Ho & m' & E1 & E2). change (statement false st (B "build") m) with (parseedge false st m). unfold parseedge.
    rewrite E1. cbn [lift bindm e_rule e_outs e_outimp e_ins e_imp e_ord]. subst rule. pose proof (rule_lookup s st (b_rule b) H) as X.
    destruct (last_value (rules s) (b_rule b)) as [rvs|] eqn:Er; [|now rewrite X]. destruct X as (r & Fr & Ir). rewrite Fr, E2. cbn [bindm].
    rewrite (eval_given s st vs Sc), <- H2. destruct (inserts_all (b_vars b)) as (own & Eo & Io). rewrite Eo. cbn [bindm].
    assert (Sc2 : in_scopes [b_vars b; vars s] [own; ms_vars st]) by (constructor; [exact Io|exact Sc]).
    rewrite nodes_app, (nodes_ok _ _ _ _ Sc2 P1). cbn [bindm]. destruct (nodes_exit [own; ms_vars st] (map pieces_of outimp)) as [[oi ->]| ->]; [|reflexivity]. cbn [bindm].
    destruct (outputs_exits (ms_edges st) (b_outs b ++ oi) [] (length (map pieces_of outs))) as [[ro Ero]| ->]; [|reflexivity]. rewrite Ero. apply outputs_ok in Ero. subst ro. cbn [app bindm].
    rewrite nodes_app, (nodes_ok _ _ _ _ Sc2 P2). cbn [bindm]. destruct (nodes_exit [own; ms_vars st] (map pieces_of imp ++ map pieces_of ord)) as [[io ->]| ->]; [|reflexivity]. cbn [bindm].
    rewrite !map_length, (places_length _ _ _ P1), (places_length _ _ _ P2).
    set (e := fun p => MEdge (b_outs b ++ oi) (length (b_outs b)) (b_ins b ++ io) (length (b_ins b)) (length (map pieces_of ins ++ map pieces_of imp)) (b_rule b) r own p).
    cbv zeta. change (var_edge st (MEdge _ _ _ _ _ _ _ _ None)) with (var_edge st (e None)).
    assert (Rp : represents (sees s b) (var_edge st (e None))).
    { constructor; cbn.
      - now rewrite firstn_app, Nat.sub_diag, firstn_all, firstn_O, app_nil_r.
      - now rewrite firstn_app, Nat.sub_diag, firstn_all, firstn_O, app_nil_r.
      - exact Io.
      - rewrite Er. exact Ir.
      - exact Sc. }
    pose proof (edgevar_total (sees s b) (var_edge st (e None)) true Rp (B "pool")) as T.
    destruct (edgevar (var_edge st (e None)) true (B "pool")) as [v'|c|]; [|reflexivity|contradiction].
    destruct H3 as [H3|(p & V & Lp)]; [exfalso; now apply (value_not_circular _ _ _ _ T)|].
    rewrite (proj1 (value_unique _ _) (B "pool") v' T _ V). destruct (insert_all_find _ _ _ (H_pools s st H)) as [_ Y]. now rewrite Y, Lp.
  - cbn [reads] in R. destruct R as (-> & m' & E1 & E2). change (statement false st (B "default") m) with (parsedefault st m). unfold parsedefault.
    rewrite E1. cbn [lift bindm]. rewrite (nodes_ok _ _ _ _ Sc P). cbn [bindm].
    assert (K : forallb (known (ms_edges st)) qs = false).
    { apply not_true_is_false. intros K. rewrite forallb_forall in K. specialize (K q Hin). apply (known_spec s st q H) in K as (b & Hb & Hor).
      destruct (Hq b Hb). tauto. }
    now rewrite K.
Qed.

(** ** Whole manifests *)
Inductive core : list stmt -> bytes -> Prop :=
| co_nil : core [] []
| co_more s w f ss t : spelled s w -> filler f -> core ss t -> core (s :: ss) (w ++ f ++ t).
Lemma manifest_core ss text : manifest ss text -> exists f t, text = f ++ t /\ filler f /\ core ss t.
Proof.
  induction 1 as [f Hf|f s w ss t Hf Hs _ (f' & t' & -> & Hf' & Hc)].
  - exists f, []. split; [now rewrite app_nil_r|]. split; [auto|constructor].
  - exists f, (w ++ f' ++ t'). split; [reflexivity|]. split; [auto|now constructor].
Qed.
Lemma core_begins ss t : core ss t -> begins t.
Proof. intros [|s w f ss' t' Hs _ _]; [now left|]. now apply (spelled_begins s). Qed.
Lemma core_length ss t : core ss t -> length ss <= length t.
Proof.
  induction 1 as [|s w f ss t Hs Hf Hc IH]; [auto|]. cbn [length]. rewrite !app_length. destruct (spelled_begins s w [] Hs) as [E|(c & r & E & _)].
  - exfalso. rewrite app_nil_r in E. destruct Hs as [n v w Hn Hl| | | |]; try discriminate. destruct (let_line_head _ w Hl) as (c & r & -> & _). discriminate.
  - rewrite app_nil_r in E. subst w. cbn [length]. lia.
Qed.

Lemma statements_right ss t : core ss t -> forall f fuel st s s', filler f -> length ss < fuel -> holds s st -> steps nodepath s ss s' ->
  exists st', statements fuel false st (f ++ t) = Ok st' /\ holds s' st'.
Proof.
  induction 1 as [|x w f1 ss t Hx Hf1 Hc IH]; intros f fuel st s s' Hf Hl Hh Hs; (destruct fuel as [|fuel]; [lia|]); cbn [statements].
  - inversion Hs; subst. rewrite (keyword_filler f Hf); [|now left|rewrite app_length; lia]. cbn [bindm]. eauto.
  - inversion Hs as [|? ? s1 ? ? Hst Hss]; subst.
    destruct (spelled_reads x w f1 t Hx Hf1 (core_begins ss t Hc)) as (k & m & f2 & E & Hf2 & R).
    rewrite (keyword_filler f Hf); [|now apply (spelled_begins x)|rewrite app_length; lia].
    destruct (w ++ f1 ++ t) as [|c r] eqn:Ew; [discriminate E|]. rewrite E. cbn [lift bindm].
    destruct (statement_right x k m f2 t s st s1 Hh R Hst) as (st1 & E1 & H1). rewrite E1. cbn [bindm].
    apply (IH f2 fuel st1 s1 s'); auto. cbn [length] in Hl. lia.
Qed.
Lemma statements_wrong ss1 x ss2 t : core (ss1 ++ x :: ss2) t -> forall f fuel st s s', filler f -> length ss1 < fuel -> holds s st -> steps nodepath s ss1 s' -> wrong nodepath s' x ->
  statements fuel false st (f ++ t) = Exit.
Proof.
  revert t. induction ss1 as [|y ss1 IH]; intros t Hc f fuel st s s' Hf Hl Hh Hs Hw; (destruct fuel as [|fuel]; [lia|]); cbn [statements].
  - cbn [app] in Hc. inversion Hc as [|? w f1 ? t1 Hx Hf1 Hc1]; subst. inversion Hs; subst.
    destruct (spelled_reads x w f1 t1 Hx Hf1 (core_begins _ t1 Hc1)) as (k & m & f2 & E & Hf2 & R).
    rewrite (keyword_filler f Hf); [|now apply (spelled_begins x)|rewrite app_length; lia].
    destruct (w ++ f1 ++ t1) as [|c r] eqn:Ew; [discriminate E|]. rewrite E. cbn [lift bindm].
    now rewrite (statement_wrong x k m f2 t1 s' st Hh R Hw).
  - cbn [app] in Hc. inversion Hc as [|? w f1 ? t1 Hx Hf1 Hc1]; subst. inversion Hs as [|? ? s1 ? ? Hst Hss]; subst.
    destruct (spelled_reads y w f1 t1 Hx Hf1 (core_begins _ t1 Hc1)) as (k & m & f2 & E & Hf2 & R).
    rewrite (keyword_filler f Hf); [|now apply (spelled_begins y)|rewrite app_length; lia].
    destruct (w ++ f1 ++ t1) as [|c r] eqn:Ew; [discriminate E|]. rewrite E. cbn [lift bindm].
    destruct (statement_right y k m f2 t1 s st s1 Hh R Hst) as (st1 & E1 & H1). rewrite E1. cbn [bindm].
    apply (IH t1 Hc1 f2 fuel st1 s1 s'); auto. cbn [length] in Hl. lia.
Qed.
