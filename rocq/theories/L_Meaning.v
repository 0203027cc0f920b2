From Verif Require Import Base M_Tree S_Tree L_Tree M_Escape L_Escape M_Env S_Env L_Env M_Canon S_Path L_Path L_Canon P_Canon M_Format S_Format L_Format M_Manifest S_Manifest L_Manifest.
Local Arguments B _ : simpl never.
Local Arguments mem_char : simpl never.

(** ** Trees *)
Lemma insert_all_app {V} (kvs more : list (bytes * V)) : forall t, insert_all t (kvs ++ more) = match insert_all t kvs with Some t => insert_all t more | None => None end.
Proof. induction kvs as [|[k v] kvs IH]; intros t; [reflexivity|]. cbn [app insert_all]. destruct (treeinsert t k v) as [[[t' o] n]|]; auto. Qed.
Lemma insert_next {V} (kvs : list (bytes * V)) t k v : insert_all Leaf kvs = Some t ->
  exists t', insert t k v = Ok (t', match last_value kvs k with Some _ => true | None => false end) /\ insert_all Leaf (kvs ++ [(k, v)]) = Some t'.
Proof.
  intros E. destruct (insert_all_spec kvs Leaf (fun _ => None)) as (t0 & E0 & A & O & F); [split; exact I|constructor|reflexivity|].
  rewrite E in E0. injection E0 as <-. destruct (treeinsert_spec t k v A O) as (t' & n & E1 & _). exists t'. split.
  - unfold insert. rewrite E1, F. reflexivity.
  - rewrite insert_all_app, E. cbn [insert_all]. now rewrite E1.
Qed.
Lemma inserts_all {V} (kvs : list (bytes * V)) : exists t, inserts Leaf kvs = Ok t /\ insert_all Leaf kvs = Some t.
Proof.
  assert (X : forall (l : list (bytes * V)) t t', insert_all t l = Some t' -> inserts t l = Ok t').
  { induction l as [|[k v] l IH]; intros t t' E; [now injection E as <-|]. cbn [insert_all inserts] in *. unfold insert.
    destruct (treeinsert t k v) as [[[t1 o] n]|]; [|discriminate]. cbn [bindm]. auto. }
  destruct (insert_all_spec kvs Leaf (fun _ => None)) as (t & E & _); [split; exact I|constructor|reflexivity|]. eauto.
Qed.
Lemma last_value_app {V} (a b : list (bytes * V)) k : last_value (a ++ b) k = match last_value b k with Some v => Some v | None => last_value a k end.
Proof.
  unfold last_value. rewrite fold_left_app. generalize (fold_left (fun acc kv => if beqb (fst kv) k then Some (snd kv) else acc) a None). intros z.
  revert z. induction b as [|[x y] b IH]; intros z; cbn [fold_left]; [destruct z; reflexivity|]. cbn [fst snd].
  destruct (beqb x k); [rewrite (IH (Some y))|apply IH].
  destruct (fold_left _ b None); reflexivity.
Qed.
Lemma last_value_one {V} (k' : bytes) (v : V) k : last_value [(k', v)] k = if beqb k' k then Some v else None.
Proof. reflexivity. Qed.

(** ** Values and paths *)
Lemma eval_pieces look v : eval_parts look (pieces_of v) = concat (map (fun a => match a with Chr c => [c] | Var x => or_empty (look x) end) v).
Proof.
  induction v as [|[c|x] v IH]; [reflexivity| |].
  - cbn [pieces_of map concat app]. rewrite <- IH. destruct (pieces_of v) as [|[s|y] ps]; reflexivity.
  - cbn [pieces_of map concat]. unfold eval_parts in *. cbn [map concat]. rewrite IH. unfold or_empty. reflexivity.
Qed.
Definition in_scopes (ss : list (list (bytes * bytes))) (ts : list scope) : Prop := Forall2 (fun bs t => mkscope bs = Some t) ss ts.
Lemma eval_expand ss ts v : in_scopes ss ts -> enveval ts (pieces_of v) = expand ss v.
Proof.
  intros H. unfold enveval, expand. rewrite eval_pieces. f_equal. apply map_ext. intros [c|x]; [reflexivity|]. now rewrite (envvar_innermost ss ts x H).
Qed.
Lemma canonical_path p q : canonical p q -> canonpath p = Some q.
Proof.
  intros (H1 & H2 & H3 & ->). destruct (walk (comps p)) as [u st0] eqn:E. apply (C72_canonical_partial p u st0); auto.
Qed.
Lemma nodes_ok ss ts ps qs : in_scopes ss ts -> places ss ps qs -> nodes ts (map pieces_of ps) = Ok qs.
Proof.
  intros H P. induction P as [|p q ps qs Hp _ IH]; [reflexivity|]. cbn [map nodes]. rewrite (eval_expand ss ts p H), (canonical_path _ _ Hp).
  cbn [lift bindm]. now rewrite IH.
Qed.
Lemma nodes_exit ts ps : (exists ns, nodes ts ps = Ok ns) \/ nodes ts ps = Exit.
Proof.
  induction ps as [|p ps IH]; [left; now exists []|]. cbn [nodes]. destruct (canonpath (enveval ts p)); [|now right]. cbn [lift bindm].
  destruct IH as [[ns ->]| ->]; [left; now eexists|now right].
Qed.
Lemma nodes_app ts ps ps' : nodes ts (ps ++ ps') = let* a := nodes ts ps in let* b := nodes ts ps' in Ok (a ++ b).
Proof.
  induction ps as [|p ps IH]; cbn [app nodes].
  - cbn [bindm]. destruct (nodes ts ps'); reflexivity.
  - destruct (canonpath (enveval ts p)) as [n|]; [|reflexivity]. cbn [lift bindm]. rewrite IH. destruct (nodes ts ps) as [x| | | |]; try reflexivity. cbn [bindm].
    destruct (nodes ts ps'); reflexivity.
Qed.
Lemma places_app ss a b a' b' : places ss a a' -> places ss b b' -> places ss (a ++ b) (a' ++ b').
Proof. apply Forall2_app. Qed.
Lemma places_length ss a a' : places ss a a' -> length a = length a'.
Proof. intros H. induction H; [reflexivity|]. cbn [length]. now f_equal. Qed.

(** ** Outputs *)
Lemma outputs_fresh es ps : forall acc k, NoDup (acc ++ ps) -> (forall p, In p ps -> generated es p = false) -> outputs false es ps acc k = Ok (acc ++ ps, k).
Proof.
  induction ps as [|p ps IH]; intros acc k N G; cbn [outputs]; [now rewrite app_nil_r|].
  rewrite (G p (or_introl eq_refl)). cbn [orb].
  assert (X : existsb (beqb p) acc = false).
  { apply not_true_is_false. intros X. apply existsb_exists in X as (x & Hx & E). destruct (beqb_spec p x) as [<-|]; [|discriminate].
    apply NoDup_remove_2 in N. apply N. apply in_or_app. now left. }
  rewrite X, IH; [|now rewrite <- app_assoc|intros; apply G; now right]. now rewrite <- app_assoc.
Qed.
Lemma outputs_twice es ps : forall acc k, NoDup acc -> (~ NoDup (acc ++ ps) \/ exists p, In p ps /\ generated es p = true) -> outputs false es ps acc k = Exit.
Proof.
  induction ps as [|p ps IH]; intros acc k Na H; cbn [outputs].
  - rewrite app_nil_r in H. destruct H as [H|(p & [] & _)]. contradiction.
  - destruct (generated es p) eqn:G; [reflexivity|]. cbn [orb]. destruct (existsb (beqb p) acc) eqn:X; [reflexivity|]. apply IH.
    + apply NoDup_rev in Na. rewrite <- (rev_involutive (acc ++ [p])). apply NoDup_rev. rewrite rev_app_distr. cbn. constructor; auto.
      intros Hin. apply in_rev in Hin. assert (existsb (beqb p) acc = true) by (apply existsb_exists; exists p; split; [auto|apply beqb_refl]). congruence.
    + destruct H as [H|(q & [<-|Hq] & Gq)]; [left; now rewrite <- app_assoc|congruence|right; eauto].
Qed.

(** ** What the reader's state holds *)
Record edge_holds (s : said) (b : build) (e : medge) : Prop := {
  H_out : me_out e = all_outs b; H_outimp : me_outimp e = length (b_outs b);
  H_in : me_in e = all_ins b; H_inimp : me_inimp e = length (b_ins b); H_inorder : me_inorder e = length (b_ins b ++ b_imp b);
  H_rule : me_rule e = b_rule b; H_own : insert_all Leaf (b_vars b) = Some (me_own e); H_pool : me_pool e = b_pool b;
  H_rulevars : exists vs, last_value (rules s) (b_rule b) = Some vs /\ insert_all Leaf vs = Some (me_rulevars e) }.
Record holds (s : said) (st : mstate) : Prop := {
  H_vars : insert_all Leaf (vars s) = Some (ms_vars st);
  H_rules : exists rs, insert_all Leaf rs = Some (ms_rules st) /\ Forall2 (fun x y => fst x = fst y /\ insert_all Leaf (snd x) = Some (snd y)) (rules s) rs;
  H_edges : Forall2 (edge_holds s) (builds s) (ms_edges st);
  H_defaults : ms_defaults st = defaults s;
  H_pools : insert_all Leaf (pools s) = Some (ms_pools st) }.
Lemma holds_first : holds at_first start.
Proof.
  constructor; try reflexivity.
  - exists [(B "phony", Leaf)]. split; [reflexivity|]. constructor; [split; reflexivity|constructor].
  - constructor.
Qed.

Lemma rule_lookup s st n : holds s st -> match last_value (rules s) n with
  | Some vs => exists r, treefind (ms_rules st) n = Some r /\ insert_all Leaf vs = Some r
  | None => treefind (ms_rules st) n = None end.
Proof.
  intros H. destruct (H_rules s st H) as (rs & E & F). destruct (insert_all_find _ _ _ E) as [_ X]. rewrite X. clear E X.
  unfold last_value.
  assert (Y : forall a b, match a, b with Some vs, Some r => insert_all Leaf vs = Some r | None, None => True | _, _ => False end ->
     match fold_left (fun acc kv => if beqb (fst kv) n then Some (snd kv) else acc) (rules s) a with
     | Some vs => exists r, fold_left (fun acc kv => if beqb (fst kv) n then Some (snd kv) else acc) rs b = Some r /\ insert_all Leaf vs = Some r
     | None => fold_left (fun acc kv => if beqb (fst kv) n then Some (snd kv) else acc) rs b = None end).
  { induction F as [|x y l l' [F1 F2] F IH]; intros a b Hab; cbn [fold_left].
    - destruct a, b; try contradiction; eauto.
    - rewrite <- F1. apply IH. destruct (beqb (fst x) n); auto. }
  apply (Y None None). exact I.
Qed.
Lemma generated_spec s st p : holds s st -> generated (ms_edges st) p = true <-> exists b, In b (builds s) /\ In p (all_outs b).
Proof.
  intros H. pose proof (H_edges s st H) as F. unfold generated. induction F as [|b e bs es Hb _ IH]; cbn [existsb].
  - split; [discriminate|]. intros (b & [] & _).
  - rewrite orb_true_iff, IH. rewrite (H_out s b e Hb). split.
    + intros [E|(b' & H1 & H2)]; [|exists b'; split; [now right|auto]]. apply existsb_exists in E as (x & Hx & E). destruct (beqb_spec p x) as [<-|]; [|discriminate].
      exists b. split; [now left|auto].
    + intros (b' & [<-|Hb'] & H2); [left|right; eauto]. apply existsb_exists. exists p. split; [auto|apply beqb_refl].
Qed.
Lemma known_spec s st p : holds s st -> known (ms_edges st) p = true <-> exists b, In b (builds s) /\ (In p (all_outs b) \/ In p (all_ins b)).
Proof.
  intros H. pose proof (H_edges s st H) as F. unfold known. induction F as [|b e bs es Hb _ IH]; cbn [existsb].
  - split; [discriminate|]. intros (b & [] & _).
  - rewrite orb_true_iff, IH. rewrite (H_out s b e Hb), (H_in s b e Hb).
    assert (M : forall l, existsb (beqb p) l = true <-> In p l).
    { intros l. rewrite existsb_exists. split; [intros (x & Hx & E); destruct (beqb_spec p x) as [<-|]; [auto|discriminate]|intros Hp; exists p; split; [auto|apply beqb_refl]]. }
    rewrite orb_true_iff, !M. split.
    + intros [E|(b' & H1 & H2)]; [exists b; split; [now left|auto]|exists b'; split; [now right|auto]].
    + intros (b' & [<-|Hb'] & H2); [now left|right; eauto].
Qed.
Lemma edge_holds_more s s' b e : (forall n vs, last_value (rules s) n = Some vs -> last_value (rules s') n = Some vs) -> edge_holds s b e -> edge_holds s' b e.
Proof. intros H [? ? ? ? ? ? ? ? (vs & E & I)]. constructor; eauto. Qed.
Lemma Forall2_more s s' bs es : (forall n vs, last_value (rules s) n = Some vs -> last_value (rules s') n = Some vs) -> Forall2 (edge_holds s) bs es -> Forall2 (edge_holds s') bs es.
Proof. intros H F. induction F; constructor; auto. now apply (edge_holds_more s). Qed.

(** variables of an edge *)
Lemma edge_represents s st b e : holds s st -> edge_holds s b e -> represents (sees s b) (var_edge st e).
Proof.
  intros H He. destruct (H_rulevars s b e He) as (vs & E & I). constructor; cbn.
  - rewrite (H_inimp s b e He), (H_in s b e He). unfold all_ins. now rewrite firstn_app, Nat.sub_diag, firstn_all, firstn_O, app_nil_r.
  - rewrite (H_outimp s b e He), (H_out s b e He). unfold all_outs. now rewrite firstn_app, Nat.sub_diag, firstn_all, firstn_O, app_nil_r.
  - exact (H_own s b e He).
  - rewrite E. exact I.
  - constructor; [exact (H_vars s st H)|constructor].
Qed.

(** ** Numbers *)
Lemma strtol_digits d r : all_digits d -> nondigit_head r -> strtol (d ++ r) = (clamp (dec_value d), r).
Proof.
  intros Hd Hr. apply strtol_reads; auto. exists [], [], d. split; [reflexivity|]. split; [reflexivity|]. split; [auto|]. left. auto.
Qed.
Lemma dec_value_pos d : forallb is_digit d = true -> (0 <= dec_value d)%Z.
Proof.
  unfold dec_value. assert (X : forall l a, (0 <= a)%Z -> forallb is_digit l = true -> (0 <= fold_left (fun a c => a * 10 + (Z.of_nat (cval c) - 48)) l a)%Z).
  { induction l as [|c l IH]; intros a Ha Hl; [auto|]. cbn [forallb fold_left] in *. apply andb_true_iff in Hl as [H1 H2]. apply IH; auto.
    unfold is_digit in H1. apply andb_true_iff in H1 as [H1 _]. apply Nat.leb_le in H1. lia. }
  intros H. apply X; [lia|auto].
Qed.
Lemma clamp_small z : (0 <= z < 2 ^ 31)%Z -> clamp z = z.
Proof. unfold clamp, LONG_MIN, LONG_MAX. lia. Qed.
Lemma to_int_small z : (0 <= z < 2 ^ 31)%Z -> to_int z = z.
Proof. intros H. unfold to_int. rewrite Z.mod_small by lia. lia. Qed.
Lemma depth_ok s st vs d : holds s st -> pool_depth s vs d -> depth [ms_vars st] (given vs) 0 = Ok d /\ (0 < d)%Z.
Proof.
  intros H (F & v & L & ->). assert (R : in_scopes [vars s] [ms_vars st]) by (constructor; [exact (H_vars s st H)|constructor]).
  assert (X : forall z z', match z with Some v => z' = dec_value (expand [vars s] v) /\ (0 < z')%Z | None => True end ->
    match fold_left (fun acc kv => if beqb (fst kv) (B "depth") then Some (snd kv) else acc) vs z with
    | Some v => depth [ms_vars st] (given vs) z' = Ok (dec_value (expand [vars s] v)) /\ (0 < dec_value (expand [vars s] v))%Z | None => True end).
  { clear L. induction F as [|[k x] vs (F1 & F2 & F3) F IH]; intros z z' Hz.
    - cbn [fold_left given map depth]. destruct z; [|auto]. destruct Hz as [-> Hz]. auto.
    - cbn [fold_left given map depth fst snd] in *. subst k. rewrite beqb_refl. rewrite (eval_expand _ _ x R).
      pose proof (strtol_digits _ [] F2 I) as E. rewrite app_nil_r in E. rewrite E, clamp_small, to_int_small by lia.
      apply IH. split; [reflexivity|lia]. }
  specialize (X None 0%Z I). unfold last_value in L. rewrite L in X. exact X.
Qed.
Lemma dropw_digits d r : all_digits d -> dropw c_isspace (d ++ r) = d ++ r.
Proof. intros [Hne H]. destruct d as [|c d]; [congruence|]. cbn [forallb] in H. apply andb_true_iff in H as [H _]. cbn [app dropw]. now rewrite (digit_not_space c H). Qed.
Lemma checkversion_spec v a i : version v a i -> checkversion v = negb ((1 <? a) || ((a =? 1) && (9 <? i)))%Z.
Proof.
  intros (m & r & -> & Hm & <- & Hlt & Hr). unfold checkversion.
  assert (Pm := dec_value_pos m (proj2 Hm)).
  assert (Hh : nondigit_head r) by (destruct Hr as [[-> _]|(c & r' & -> & _)]; [exact I|reflexivity]).
  rewrite strtol_digits by auto. rewrite dropw_digits by auto.
  assert (L : (length r <? length (m ++ r)) = true) by (apply Nat.ltb_lt; rewrite app_length; destruct Hm as [Hne _]; destruct m; [congruence|cbn; lia]).
  rewrite L. rewrite clamp_small by lia.
  destruct Hr as [[-> ->]|(c & r' & -> & Hc & <- & Hlt' & Hx)]; [reflexivity|].
  change (B ".") with ["."%char]. cbn [app]. rewrite ceqb_refl.
  assert (Hh' : nondigit_head r') by (destruct r' as [|x y]; [exact I|now apply (Hx x y)]).
  rewrite strtol_digits by auto. rewrite dropw_digits by auto.
  assert (L' : (length r' <? length (c ++ r')) = true) by (apply Nat.ltb_lt; rewrite app_length; destruct Hc as [Hne _]; destruct c; [congruence|cbn; lia]).
  rewrite L'. assert (Pc := dec_value_pos c (proj2 Hc)). rewrite clamp_small by lia. reflexivity.
Qed.
Lemma sets_has n vs : existsb (fun kv : bytes * list part => beqb (fst kv) n && match snd kv with [] => false | _ => true end) (given vs) = true <-> sets n vs.
Proof.
  unfold sets, given. rewrite existsb_exists. split.
  - intros ((k & ps) & Hin & E). apply in_map_iff in Hin as ((k' & v) & Ek & Hin). cbn [fst snd] in *. injection Ek as <- <-.
    apply andb_true_iff in E as [E1 E2]. destruct (beqb_spec k' n) as [->|]; [|discriminate]. exists v. split; [auto|]. intros ->. discriminate.
  - intros (v & Hin & Hv). exists (n, pieces_of v). split; [apply in_map_iff; exists (n, v); auto|]. cbn [fst snd]. rewrite beqb_refl.
    pose proof (pieces_nonempty v Hv). destruct (pieces_of v); [congruence|reflexivity].
Qed.
