(** Lemmas about the names of rules: they are found, and no two rules have the same one. *)
From Coq Require Import Lia Permutation.
From Verif Require Import Base S_Path S_Escape M_Escape L_Escape M_Format S_Format L_Format M_Toolchain M_Backend S_Backend S_Tree S_Env S_Manifest L_Spelling L_Backend L_Words M_Compile S_Compile L_Compile L_Rules.
Local Arguments B _ : simpl never.

(** ** unique names *)
Definition longer (k : nat) (names : list bytes) : nat := length (filter (fun s => k <=? length s) names).
Lemma longer_less k j (names : list bytes) x : In x names -> length x = k -> k < j -> longer j names < longer k names.
Proof.
  unfold longer. intros Hi Hk Hj. induction names as [|y names IH]; [contradiction|]. cbn [filter].
  assert (M : forall l : list bytes, length (filter (fun s => j <=? length s) l) <= length (filter (fun s => k <=? length s) l)).
  { induction l as [|z l IHl]; [apply Nat.le_refl|]. cbn [filter]. destruct (j <=? length z) eqn:E1, (k <=? length z) eqn:E2; cbn [length]; try lia.
    apply Nat.leb_le in E1. apply Nat.leb_gt in E2. lia. }
  destruct Hi as [->|Hi].
  - replace (k <=? length x) with true by (symmetry; apply Nat.leb_le; lia). replace (j <=? length x) with false by (symmetry; apply Nat.leb_gt; lia).
    cbn [length]. specialize (M names). lia.
  - specialize (IH Hi). destruct (j <=? length y) eqn:E1, (k <=? length y) eqn:E2; cbn [length]; try lia. apply Nat.leb_le in E1. apply Nat.leb_gt in E2. lia.
Qed.
Lemma existsb_beqb (x : bytes) l : existsb (beqb x) l = true <-> In x l.
Proof.
  rewrite existsb_exists. split.
  - intros (y & Hy & E). destruct (beqb_spec x y) as [->|]; [exact Hy|discriminate].
  - intros H. exists x. split; [exact H|apply beqb_refl].
Qed.
Lemma uniqify_from_ok names fuel : forall x name, longer (length name) names <= fuel ->
  exists d, forallb is_digit d = true /\ uniqify_from fuel x names name = Some (name ++ d) /\ ~ In (name ++ d) names.
Proof.
  induction fuel as [|fuel IH]; intros x name L; cbn [uniqify_from]; destruct (existsb (beqb name) names) eqn:E.
  - apply existsb_beqb in E. pose proof (longer_less (length name) (S (length name)) names name E eq_refl ltac:(lia)). lia.
  - exists []. rewrite app_nil_r. split; [reflexivity|]. split; [reflexivity|]. rewrite <- existsb_beqb. congruence.
  - apply existsb_beqb in E. destruct (print_nat_dec_spec x) as [[Hn Hd] _].
    assert (Lp : length name < length (name ++ print_nat_dec x)). { rewrite app_length. destruct (print_nat_dec x); [contradiction|cbn; lia]. }
    pose proof (longer_less (length name) (length (name ++ print_nat_dec x)) names name E eq_refl Lp).
    destruct (IH (x + 1)%N (name ++ print_nat_dec x) ltac:(lia)) as (d & D1 & D2 & D3). exists (print_nat_dec x ++ d).
    rewrite app_assoc. split; [|auto]. rewrite forallb_app. apply andb_true_iff. auto.
  - exists []. rewrite app_nil_r. split; [reflexivity|]. split; [reflexivity|]. rewrite <- existsb_beqb. congruence.
Qed.
Lemma uniqify_ok names name : exists d, forallb is_digit d = true /\ uniqify names name = Some (name ++ d, names ++ [name ++ d]) /\ ~ In (name ++ d) names.
Proof.
  destruct (uniqify_from_ok names (length names) 1 name) as (d & D1 & D2 & D3).
  - unfold longer. clear. induction names as [|x l IH]; [constructor|]. cbn [filter length]. destruct (_ <=? _); cbn [length]; lia.
  - exists d. unfold uniqify. rewrite D2. auto.
Qed.

(** ** the shape of names *)
Definition rule_char (c : ascii) : bool := is_alnum c || ceqb c "_".
Lemma escape_chars s : forallb rule_char (escape_rule s) = true.
Proof.
  unfold escape_rule. rewrite forallb_forall. intros c H. apply in_map_iff in H as (x & <- & _). unfold rule_char. destruct (is_alnum x || ceqb x "_") eqn:E; [exact E|reflexivity].
Qed.
Lemma escape_app a b : escape_rule (a ++ b) = escape_rule a ++ escape_rule b. Proof. apply map_app. Qed.
Lemma escape_id s : forallb rule_char s = true -> escape_rule s = s.
Proof. induction s as [|c s IH]; [reflexivity|]. cbn [forallb]. intros H. apply andb_true_iff in H as [H1 H2]. cbn [escape_rule map]. unfold rule_char in H1. rewrite H1. f_equal. now apply IH. Qed.
Lemma digit_rule_chars d : forallb is_digit d = true -> forallb rule_char d = true.
Proof.
  intros H. apply forallb_forall. intros c Hc. rewrite forallb_forall in H. specialize (H c Hc). unfold rule_char. revert H. destruct c as [[] [] [] [] [] [] [] []]; vm_compute; auto.
Qed.
Lemma rule_char_name s : s <> [] -> forallb rule_char s = true -> a_name s.
Proof.
  intros Hn H. split; [exact Hn|]. apply forallb_forall. intros c Hc. rewrite forallb_forall in H. specialize (H c Hc). unfold rule_char, name_char in *.
  apply orb_true_iff in H as [->|H]; [reflexivity|]. apply ceqb_eq in H as ->. reflexivity.
Qed.
Lemma lang_chars l : forallb rule_char (lang_name l) = true. Proof. destruct l; reflexivity. Qed.

(** the name of a rule for compiling: of a project, or of a target *)
Definition compile_name (x : bytes) : Prop :=
  exists pre l tail d, x = escape_rule (pre ++ B "_" ++ lang_name l ++ B "_compiler" ++ tail) ++ d /\ forallb is_digit d = true /\
    (tail = [] \/ exists bn, tail = B "_for_" ++ bn /\ forall m c, bn = m ++ c :: B "linker" -> is_alnum c = true).
Definition KINDS : list bytes := [B "c"; B "c_hdr"; B "cpp"; B "cpp_hdr"; B "c_obj"; B "objc"; B "assembly"; B "llvm_ir"; B "nasm"; B "static"].
Definition link_name (x : bytes) : Prop := exists pre k, In k KINDS /\ x = pre ++ B "_" ++ k ++ B "_linker".
Lemma lang_kind l : In (lang_name l) KINDS. Proof. destruct l; cbn; auto 12. Qed.
Lemma compile_name_ok x : compile_name x -> a_name x /\ In "_"%char x /\ In "m"%char x /\ forallb rule_char x = true.
Proof.
  intros (pre & l & tail & d & -> & Hd & _). assert (C : forallb rule_char (escape_rule (pre ++ B "_" ++ lang_name l ++ B "_compiler" ++ tail) ++ d) = true).
  { rewrite forallb_app. apply andb_true_iff. split; [apply escape_chars|now apply digit_rule_chars]. }
  assert (I : forall c, In c (B "_compiler") -> In c (escape_rule (pre ++ B "_" ++ lang_name l ++ B "_compiler" ++ tail) ++ d)).
  { intros c Hc. apply in_or_app. left. rewrite !escape_app. change (escape_rule (B "_compiler")) with (B "_compiler"). apply in_or_app. right. apply in_or_app. right. apply in_or_app. right. apply in_or_app. now left. }
  split; [|split; [|split]].
  - apply rule_char_name; [|exact C]. intros E. specialize (I "_"%char (or_introl eq_refl)). rewrite E in I. contradiction.
  - apply I. vm_compute. auto.
  - apply I. vm_compute. auto 10.
  - exact C.
Qed.
(** ends *)
Lemma suffix_cases {A} (a s b t : list A) : a ++ s = b ++ t -> (exists m, a = b ++ m /\ t = m ++ s) \/ (exists m, b = a ++ m /\ s = m ++ t).
Proof.
  revert b. induction a as [|x a IH]; intros b E; cbn [app] in E.
  - right. exists b. auto.
  - destruct b as [|y b]; cbn [app] in E.
    + left. exists (x :: a). auto.
    + injection E as -> E. destruct (IH b E) as [(m & -> & ->)|(m & -> & ->)]; [left|right]; exists m; auto.
Qed.
Lemma not_suffix (m s t : bytes) : ends_with t s = false -> t <> m ++ s.
Proof.
  intros H ->. unfold ends_with in H. rewrite app_length in H. replace (length s <=? length m + length s) with true in H by (symmetry; apply Nat.leb_le; lia).
  replace (length m + length s - length s) with (length m) in H by lia. rewrite skipn_app, skipn_all, Nat.sub_diag in H. cbn [skipn app andb] in H. rewrite beqb_refl in H. discriminate.
Qed.
Lemma kinds_apart p q k j : In k KINDS -> In j KINDS -> p ++ B "_" ++ k ++ B "_linker" = q ++ B "_" ++ j ++ B "_linker" -> p = q /\ k = j.
Proof.
  intros Hk Hj E. assert (K : k = j \/ (ends_with (B "_" ++ k ++ B "_linker") (B "_" ++ j ++ B "_linker") = false /\ ends_with (B "_" ++ j ++ B "_linker") (B "_" ++ k ++ B "_linker") = false)).
  { unfold KINDS in *. cbn [In] in Hk, Hj.
    repeat (destruct Hk as [<-|Hk]; [repeat (destruct Hj as [<-|Hj]; [first [left; reflexivity|right; split; vm_compute; reflexivity]|]); contradiction|]). contradiction. }
  destruct K as [->|[K1 K2]]; [apply app_inv_tail in E; auto|]. exfalso. destruct (suffix_cases _ _ _ _ E) as [(m & _ & X)|(m & _ & X)]; [now apply (not_suffix m _ _ K2)|now apply (not_suffix m _ _ K1)].
Qed.
Lemma escape_inv c x : escape_rule [x] = [c] -> c <> "_"%char -> x = c.
Proof. cbn. destruct (is_alnum x || ceqb x "_"); intros [= <-] N; congruence. Qed.
Lemma escape_inv_app s a b : escape_rule s = a ++ b -> exists s1 s2, s = s1 ++ s2 /\ escape_rule s1 = a /\ escape_rule s2 = b.
Proof.
  revert a. induction s as [|c s IH]; intros a E.
  - symmetry in E. apply app_eq_nil in E as [-> ->]. exists [], []. auto.
  - destruct a as [|x a]; [exists [], (c :: s); auto|]. cbn [escape_rule map app] in E. injection E as E0 E.
    destruct (IH a E) as (s1 & s2 & -> & H1 & H2). exists (c :: s1), s2. split; [reflexivity|]. split; [|exact H2]. cbn [escape_rule map]. now rewrite E0, <- H1.
Qed.
Lemma escape_word s w : ~ In "_"%char w -> escape_rule s = w -> s = w.
Proof.
  revert w. induction s as [|c s IH]; intros w N E; [exact E|]. destruct w as [|x w]; [discriminate|]. cbn [escape_rule map] in E. injection E as E0 E.
  f_equal; [|apply IH; [intros X; apply N; now right|exact E]]. destruct (is_alnum c || ceqb c "_"); [exact E0|]. exfalso. apply N. now left.
Qed.
Lemma last_digit_linker (x d pre : bytes) : forallb is_digit d = true -> x ++ d = pre ++ B "_linker" -> d = [].
Proof.
  intros Hd E. destruct d as [|c d _] using rev_ind; [reflexivity|]. rewrite forallb_app in Hd. apply andb_true_iff in Hd as [_ Hd]. cbn in Hd. rewrite andb_true_r in Hd.
  change (B "_linker") with (B "_linke" ++ ["r"%char]) in E. rewrite !app_assoc in E. apply app_inj_tail in E as [_ ->]. discriminate Hd.
Qed.
Lemma ends_same (a b s t : bytes) : a ++ s = b ++ t -> ends_with s t = false -> ends_with t s = false -> False.
Proof. intros E K1 K2. destruct (suffix_cases _ _ _ _ E) as [(m & _ & X)|(m & _ & X)]; [now apply (not_suffix m _ _ K2)|now apply (not_suffix m _ _ K1)]. Qed.
Lemma compile_not_link x : compile_name x -> link_name x -> False.
Proof.
  intros (pre & l & tail & d & -> & Hd & Ht) (p & k & Hk & E).
  assert (d = []) as ->. { eapply (last_digit_linker _ _ (p ++ B "_" ++ k)); [exact Hd|]. rewrite E. rewrite <- !app_assoc. reflexivity. }
  rewrite app_nil_r in E. change (B "_linker") with ("_"%char :: B "linker") in E.
  destruct (escape_inv_app (pre ++ B "_" ++ lang_name l ++ B "_compiler" ++ tail) (p ++ B "_" ++ k) ("_"%char :: B "linker")) as (s1 & s2 & W & E1 & E2). { rewrite E, <- !app_assoc. reflexivity. }
  destruct s2 as [|c s2]; [discriminate|]. cbn [escape_rule map] in E2. injection E2 as Ec E2. apply escape_word in E2; [|vm_compute; intuition discriminate]. subst s2.
  assert (Hc : is_alnum c = false). { destruct (is_alnum c) eqn:X; [|reflexivity]. cbn [orb] in Ec. subst c. discriminate X. }
  clear E. destruct Ht as [->|(bn & -> & Hbn)].
  - rewrite app_nil_r in W. apply (ends_same (pre ++ B "_" ++ lang_name l ++ B "_com") (s1 ++ [c]) (B "piler") (B "linker")); [|reflexivity|reflexivity].
    rewrite <- !app_assoc. exact W.
  - assert (W' : (pre ++ B "_" ++ lang_name l ++ B "_compiler" ++ B "_for_") ++ bn = s1 ++ c :: B "linker") by (rewrite <- W, <- !app_assoc; reflexivity).
    destruct (suffix_cases _ _ _ _ W') as [(m & X1 & X2)|(m & X1 & X2)].
    + destruct m as [|y m _] using rev_ind; cbn [app] in X2.
      * rewrite <- X2 in Hbn. rewrite (Hbn [] c eq_refl) in Hc. discriminate.
      * assert (y = "_"%char) as ->.
        { change (B "_for_") with (B "_for" ++ ["_"%char]) in X1. rewrite !app_assoc in X1. apply app_inj_tail in X1 as [_ <-]. reflexivity. }
        rewrite <- app_assoc in X2. destruct m as [|z m]; cbn [app] in X2.
        -- injection X2 as -> X2. cbn [app] in X1. change (B "_for_") with (B "_for" ++ ["_"%char]) in X1. rewrite !app_assoc in X1. apply app_inj_tail in X1 as [X1 _].
           subst s1. rewrite !escape_app in E1. change (escape_rule (B "_for")) with (B "_for") in E1.
           assert (K : ends_with (B "_" ++ k) (B "_for") = false /\ ends_with (B "_for") (B "_" ++ k) = false).
           { clear -Hk. unfold KINDS in Hk. cbn [In] in Hk. repeat (destruct Hk as [<-|Hk]; [split; vm_compute; reflexivity|]). contradiction. }
           destruct K as [K1 K2]. exact (ends_same _ _ _ _ E1 K2 K1).
        -- injection X2 as _ X2. assert (H : In "_"%char (B "linker")) by (rewrite X2; apply in_or_app; right; now left). vm_compute in H. intuition discriminate.
    + rewrite (Hbn m c X2) in Hc. discriminate.
Qed.

(** ** naming the rules of a project *)
Definition specials (rs : rulemap) : list bytes := map (fun x => fst (snd x)) (filter (fun x => snd (snd x)) rs).
Definition bname_ok (bn : bytes) : Prop := forall m c, bn = m ++ c :: B "linker" -> is_alnum c = true.
Record steps_names (n n' : naming) (special : list bytes) : Prop := {
  sn_generic : exists newg, na_generic n' = na_generic n ++ newg /\ Permutation (na_taken n') (na_taken n ++ special ++ map snd newg);
  sn_taken : NoDup (na_taken n) -> NoDup (na_taken n');
  sn_langs : NoDup (map fst (na_generic n)) -> NoDup (map fst (na_generic n'));
  sn_names : Forall compile_name (na_taken n) -> Forall compile_name (na_taken n') }.
Lemma steps_none n : steps_names n n [].
Proof. constructor; auto. exists []. now rewrite !app_nil_r. Qed.
Lemma steps_more n n1 n2 s1 s2 : steps_names n n1 s1 -> steps_names n1 n2 s2 -> steps_names n n2 (s1 ++ s2).
Proof.
  intros [(g1 & A1 & B1) C1 D1 E1] [(g2 & A2 & B2) C2 D2 E2]. constructor; auto. exists (g1 ++ g2). split; [now rewrite A2, A1, app_assoc|].
  rewrite B2, B1, map_app, <- !app_assoc. apply Permutation_app_head, Permutation_app_head. rewrite !app_assoc. apply Permutation_app_tail. apply Permutation_app_comm.
Qed.
Lemma NoDup_snoc {A} (l : list A) x : NoDup l -> ~ In x l -> NoDup (l ++ [x]).
Proof. intros H1 H2. apply NoDup_rev in H1. rewrite <- (rev_involutive (l ++ [x])). apply NoDup_rev. rewrite rev_app_distr. cbn. constructor; [now rewrite <- in_rev|exact H1]. Qed.
Lemma Forall_snoc {A} (P : A -> Prop) l x : Forall P l -> P x -> Forall P (l ++ [x]).
Proof. intros H1 H2. apply Forall_app. auto. Qed.
Lemma name_rule_ok pre bn l k n : bname_ok bn -> exists name sp n', name_rule pre bn l k n = Some ((name, sp), n')
  /\ steps_names n n' (if sp then [name] else []) /\ (sp = false -> In (l, name) (na_generic n')).
Proof.
  intros Hb. unfold name_rule. destruct (2 <? k).
  - destruct (uniqify_ok (na_taken n) (escape_rule (pre ++ B "_" ++ lang_name l ++ B "_compiler_for_" ++ bn))) as (d & D1 & -> & D3).
    eexists _, true, _. split; [reflexivity|]. split; [|discriminate]. constructor; cbn [na_taken na_generic].
    + exists []. now rewrite !app_nil_r.
    + intros H. now apply NoDup_snoc.
    + auto.
    + intros H. apply Forall_snoc; [exact H|]. exists pre, l, (B "_for_" ++ bn), d. split; [reflexivity|]. split; [exact D1|]. right. eauto.
  - destruct (geti (na_generic n) l) as [name|] eqn:E.
    + exists name, false, n. split; [reflexivity|]. split; [apply steps_none|]. intros _. now apply geti_in.
    + destruct (uniqify_ok (na_taken n) (escape_rule (pre ++ B "_" ++ lang_name l ++ B "_compiler"))) as (d & D1 & -> & D3).
      eexists _, false, _. split; [reflexivity|]. split; [|intros _; apply in_or_app; right; now left]. constructor; cbn [na_taken na_generic].
      * eexists. split; [reflexivity|]. reflexivity.
      * intros H. now apply NoDup_snoc.
      * intros H. rewrite map_app. apply NoDup_snoc; [exact H|]. now apply geti_none.
      * intros H. apply Forall_snoc; [exact H|]. exists pre, l, [], d. rewrite app_nil_r. auto.
Qed.
Lemma steps_keep n n' s l name : steps_names n n' s -> In (l, name) (na_generic n) -> In (l, name) (na_generic n').
Proof. intros [(g & -> & _) _ _ _] H. apply in_or_app. now left. Qed.
Lemma name_langs_ok pre bn ls : bname_ok bn -> forall n, exists rs n', name_langs pre bn ls n = Some (rs, n') /\ map fst rs = map fst ls
  /\ steps_names n n' (specials rs) /\ (forall l name, In (l, (name, false)) rs -> In (l, name) (na_generic n')).
Proof.
  intros Hb. induction ls as [|[l k] ls IH]; intros n; cbn [name_langs].
  - exists [], n. split; [reflexivity|]. split; [reflexivity|]. split; [apply steps_none|]. intros l name [].
  - destruct (name_rule_ok pre bn l k n Hb) as (name & sp & n1 & -> & S1 & G1). destruct (IH n1) as (rs & n2 & -> & M & S2 & G2).
    exists ((l, (name, sp)) :: rs), n2. split; [reflexivity|]. split; [cbn [map fst]; now rewrite M|]. split.
    + unfold specials. cbn [filter snd]. destruct sp; [apply (steps_more _ _ _ [name] _ S1 S2)|apply (steps_more _ _ _ [] _ S1 S2)].
    + intros l' name' [X|X]; [injection X as -> -> ->; eapply steps_keep; eauto|auto].
Qed.
Definition all_specials (ts : list (ctarget * rulemap)) : list (list bytes) := map (fun x => specials (snd x)) ts.
Lemma name_targets_ok pre ts : (forall t, In (CBuild t) ts -> bname_ok (b_name t)) -> forall n, exists rs n', name_targets pre ts n = Some (rs, n') /\ map fst rs = ts
  /\ steps_names n n' (concat (all_specials rs))
  /\ (forall t r, In (CBuild t, r) rs -> map fst r = map fst (b_count t) /\ forall l name, In (l, (name, false)) r -> In (l, name) (na_generic n')).
Proof.
  intros Hb. induction ts as [|t ts IH]; intros n; cbn [name_targets].
  - exists [], n. split; [reflexivity|]. split; [reflexivity|]. split; [apply steps_none|]. intros t r [].
  - assert (Hb' : forall t, In (CBuild t) ts -> bname_ok (b_name t)) by (intros; apply Hb; now right). destruct t as [t|t].
    + destruct (IH Hb' n) as (rs & n' & -> & M & S1 & G). exists ((COther t, []) :: rs), n'. split; [reflexivity|]. split; [cbn [map fst]; now rewrite M|]. split; [exact S1|].
      intros t' r [X|X]; [discriminate X|auto].
    + destruct (name_langs_ok pre (b_name t) (b_count t) (Hb t (or_introl eq_refl)) n) as (r & n1 & -> & M1 & S1 & G1).
      destruct (IH Hb' n1) as (rs & n2 & -> & M & S2 & G). exists ((CBuild t, r) :: rs), n2. split; [reflexivity|]. split; [cbn [map fst]; now rewrite M|].
      split; [apply (steps_more _ _ _ _ _ S1 S2)|]. intros t' r' [X|X]; [|now apply G]. injection X as -> ->. split; [exact M1|]. intros l name Hi. eapply steps_keep; eauto.
Qed.

(** ** the rules written *)
Definition own_list (t : btarget) (rs : rulemap) (cs : list (lang * comp)) : list rrule :=
  flat_map (fun x => match geti rs (fst x) with Some (name, true) => [(name, compiler_vars (Chars (shell_line (b_flags t (fst x)))) (fst x) (snd x))] | _ => [] end) cs.
Definition generic_list (g : list (lang * bytes)) (cs : list (lang * comp)) : list rrule :=
  flat_map (fun x => match geti g (fst x) with Some name => [(name, compiler_vars [Var (B "ARGS")] (fst x) (snd x))] | None => [] end) cs.
Definition linker_list (prefix : bytes) (cs : list (lang * comp)) : list rrule :=
  map (fun x => (prefix ++ B "_" ++ lang_name (fst x) ++ B "_linker", linker_vars (snd x))) cs.
Definition targets_list (cs : list (lang * comp)) (ts : list (ctarget * rulemap)) : list (list rrule) :=
  map (fun x => match fst x with CBuild t => own_list t (snd x) cs | COther _ => [] end) ts.

Lemma words_line l : Forall a_word l -> Forall line_chars l.
Proof. intros H. eapply Forall_impl; [|exact H]. now intros s [X _]. Qed.
Lemma target_args_ok cs t ls : (forall l, In l (map fst ls) -> In l (map fst cs)) -> (forall l, Forall a_word (b_flags t l)) ->
  exists args, target_args cs t ls = Some args /\ forall l, In l (map fst ls) -> geti args l = Some (desc (shell_line (b_flags t l))).
Proof.
  intros H Hf. induction ls as [|[l k] ls IH]; cbn [target_args]; [exists []; split; [reflexivity|intros l []]|].
  destruct IH as (args & E & G); [intros; apply H; now right|]. destruct (geti cs l) as [c|] eqn:Ec; [|apply geti_none in Ec; exfalso; apply Ec, H; now left].
  rewrite join_shell_ninja by (apply words_line, Hf). rewrite E. eexists. split; [reflexivity|]. intros l'. cbn [map fst In geti].
  destruct (lang_eqb_spec l' l) as [->|N]; [reflexivity|]. intros [X|X]; [congruence|auto].
Qed.
Lemma spells_line args : Forall line_chars args -> spells (Chars (shell_line args)) (desc (shell_line args)).
Proof. intros H. apply spells_desc. now apply shell_line_chars. Qed.
Lemma own_rules_ok t rs args cs : Forall (fun x => ok_comp (snd x)) cs -> (forall l, Forall a_word (b_flags t l)) ->
  (forall l, In l (map fst rs) -> geti args l = Some (desc (shell_line (b_flags t l)))) -> Forall a_name (specials rs) ->
  exists text, own_rules cs args rs = Some text /\ writes_rules (own_list t rs cs) text.
Proof.
  intros Hc Hf Ha Hn. induction Hc as [|[l k] cs Hk Hc IH]; cbn [own_rules own_list flat_map]; [exists []; split; [reflexivity|apply writes_nil]|].
  destruct IH as (rest & -> & Wr). cbn [fst snd]. destruct (geti rs l) as [[name [|]]|] eqn:E.
  - pose proof (geti_in _ _ _ E) as Hi. rewrite Ha by (apply in_map_iff; exists (l, (name, true)); auto).
    destruct (compiler_rule_ok (Chars (shell_line (b_flags t l))) (desc (shell_line (b_flags t l))) name l k) as (text & -> & Wt).
    + exact Hk.
    + apply spells_line, words_line, Hf.
    + rewrite Forall_forall in Hn. apply Hn. apply in_map_iff. exists (l, (name, true)). split; [reflexivity|]. apply filter_In. auto.
    + eexists. split; [reflexivity|]. now apply writes_app.
  - exists rest. auto.
  - exists rest. auto.
Qed.
Lemma generic_rules_ok g cs : Forall (fun x => ok_comp (snd x)) cs -> Forall a_name (map snd g) ->
  exists text, generic_rules cs g = Some text /\ writes_rules (generic_list g cs) text.
Proof.
  intros Hc Hn. induction Hc as [|[l k] cs Hk Hc IH]; cbn [generic_rules generic_list flat_map]; [exists []; split; [reflexivity|apply writes_nil]|].
  destruct IH as (rest & -> & Wr). cbn [fst snd]. destruct (geti g l) as [name|] eqn:E; [|exists rest; auto].
  destruct (compiler_rule_ok [Var (B "ARGS")] (B "$ARGS") name l k) as (text & -> & Wt).
  - exact Hk.
  - apply spells_args.
  - rewrite Forall_forall in Hn. apply Hn. apply in_map_iff. exists (l, name). split; [reflexivity|]. now apply geti_in.
  - eexists. split; [reflexivity|]. now apply writes_app.
Qed.
Lemma link_name_ok prefix k : forallb rule_char prefix = true -> In k KINDS -> a_name (prefix ++ B "_" ++ k ++ B "_linker").
Proof.
  intros Hp Hk. apply rule_char_name; [intros X; apply app_eq_nil in X as [_ X]; discriminate X|]. rewrite !forallb_app, Hp. cbn [andb].
  assert (K : forallb rule_char k = true). { unfold KINDS in Hk. cbn [In] in Hk. repeat (destruct Hk as [<-|Hk]; [reflexivity|]). contradiction. }
  rewrite K. reflexivity.
Qed.
Lemma linker_rules_ok prefix cs : forallb rule_char prefix = true -> Forall (fun x => ok_comp (snd x)) cs ->
  exists text, linker_rules prefix cs = Some text /\ writes_rules (linker_list prefix cs) text.
Proof.
  intros Hp Hc. induction Hc as [|[l k] cs Hk Hc IH]; cbn [linker_rules linker_list map]; [exists []; split; [reflexivity|apply writes_nil]|].
  destruct IH as (rest & -> & Wr). destruct (linker_rule_ok prefix l k Hk (link_name_ok _ _ Hp (lang_kind l))) as (text & -> & Wt).
  eexists. split; [reflexivity|]. now apply (writes_app [_]).
Qed.
Lemma targets_rules_ok cs ts : Forall (fun x => ok_comp (snd x)) cs ->
  (forall t rs, In (CBuild t, rs) ts -> (forall l, In l (map fst (b_count t)) -> In l (map fst cs)) /\ (forall l, Forall a_word (b_flags t l)) /\ map fst rs = map fst (b_count t) /\ Forall a_name (specials rs)) ->
  exists text, targets_rules cs ts = Some text /\ writes_rules (concat (targets_list cs ts)) text.
Proof.
  intros Hc. induction ts as [|[t rs] ts IH]; intros H; cbn [targets_rules]; [exists []; split; [reflexivity|apply writes_nil]|].
  destruct IH as (rest & -> & Wr); [intros t' rs' Hi; apply H; now right|]. destruct t as [t|t].
  - exists rest. auto.
  - destruct (H t rs (or_introl eq_refl)) as (H1 & H2 & H3 & H4). destruct (target_args_ok cs t (b_count t) H1 H2) as (args & -> & G).
    destruct (own_rules_ok t rs args cs Hc H2) as (text & -> & Wt); [rewrite H3; exact G|exact H4|]. eexists. split; [reflexivity|]. cbn [targets_list map concat fst snd]. now apply writes_app.
Qed.

(** ** no two with one name *)
Lemma nodup_both {A} (a b : list A) : NoDup a -> NoDup b -> (forall x, In x a -> ~ In x b) -> NoDup (a ++ b).
Proof.
  induction 1 as [|x a Hx Ha IH]; intros Hb D; [exact Hb|]. cbn [app]. constructor.
  - intros X. apply in_app_or in X as [X|X]; [contradiction|]. eapply D; [now left|exact X].
  - apply IH; [exact Hb|]. intros y Hy. apply D. now right.
Qed.
Lemma nodup_flat {A K} (f : A -> list K) l : NoDup l -> (forall x, In x l -> NoDup (f x)) -> (forall x y k, In x l -> In y l -> In k (f x) -> In k (f y) -> x = y) -> NoDup (flat_map f l).
Proof.
  induction 1 as [|x l Hx Hl IH]; intros H1 H2; [constructor|]. cbn [flat_map]. apply nodup_both.
  - apply H1. now left.
  - apply IH; [intros; apply H1; now right|intros; eapply H2; eauto; now right].
  - intros k Hk Hi. apply in_flat_map in Hi as (y & Hy & Hk'). assert (x = y) by (eapply H2; eauto; [now left|now right]). subst. contradiction.
Qed.
Lemma nodup_parts {A} (a b : list A) : NoDup (a ++ b) -> NoDup a /\ NoDup b /\ forall x, In x a -> ~ In x b.
Proof.
  induction a as [|x a IH]; cbn [app]; intros H; [split; [constructor|]; split; [exact H|]; intros y []|].
  inversion H as [|? ? Hx Hr]; subst. destruct (IH Hr) as (H1 & H2 & H3). split; [constructor; [intros X; apply Hx, in_or_app; now left|exact H1]|]. split; [exact H2|].
  intros y [<-|Hy]; [intros X; apply Hx, in_or_app; now right|now apply H3].
Qed.
Lemma nodup_pieces {A} (xs ys : list (list A)) : Forall2 (fun a b => NoDup a /\ incl a b) xs ys -> NoDup (concat ys) -> NoDup (concat xs) /\ incl (concat xs) (concat ys).
Proof.
  induction 1 as [|a b xs ys [Ha Hi] F IH]; cbn [concat]; intros H; [split; [constructor|apply incl_refl]|].
  apply nodup_parts in H as (H1 & H2 & H3). destruct (IH H2) as [I1 I2]. split.
  - apply nodup_both; [exact Ha|exact I1|]. intros x Hx X. apply (H3 x); auto.
  - intros x Hx. apply in_app_or in Hx as [Hx|Hx]; apply in_or_app; auto.
Qed.
Lemma nodup_map_inj {A K} (f : A -> K) l x y : NoDup (map f l) -> In x l -> In y l -> f x = f y -> x = y.
Proof.
  induction l as [|z l IH]; cbn [map]; intros H Hx Hy E; [contradiction|]. inversion H as [|? ? Hz Hr]; subst.
  destruct Hx as [<-|Hx], Hy as [<-|Hy]; auto; exfalso; apply Hz; apply in_map_iff; eauto.
Qed.
Lemma nodup_unmap {A K} (f : A -> K) l : NoDup (map f l) -> NoDup l.
Proof. apply NoDup_map_inv. Qed.
Lemma in_own t rs cs r : In r (own_list t rs cs) -> exists l k, In (l, k) cs /\ geti rs l = Some (fst r, true) /\ snd r = compiler_vars (Chars (shell_line (b_flags t l))) l k.
Proof.
  unfold own_list. intros H. apply in_flat_map in H as ([l k] & Hi & H). cbn [fst snd] in H. destruct (geti rs l) as [[name [|]]|] eqn:E; try contradiction.
  destruct H as [<-|[]]. exists l, k. auto.
Qed.
Lemma in_generic g cs r : In r (generic_list g cs) -> exists l k, In (l, k) cs /\ geti g l = Some (fst r) /\ snd r = compiler_vars [Var (B "ARGS")] l k.
Proof.
  unfold generic_list. intros H. apply in_flat_map in H as ([l k] & Hi & H). cbn [fst snd] in H. destruct (geti g l) as [name|] eqn:E; try contradiction.
  destruct H as [<-|[]]. exists l, k. auto.
Qed.
Lemma map_flat {A K L} (f : K -> L) (g : A -> list K) l : map f (flat_map g l) = flat_map (fun x => map f (g x)) l.
Proof. induction l as [|x l IH]; [reflexivity|]. cbn [flat_map]. now rewrite map_app, IH. Qed.
Lemma special_in (rs : rulemap) l name : geti rs l = Some (name, true) -> In (l, (name, true)) (filter (fun x => snd (snd x)) rs).
Proof. intros H. apply filter_In. split; [now apply geti_in|reflexivity]. Qed.
Lemma own_names t rs cs : NoDup (map fst cs) -> NoDup (specials rs) -> NoDup (map fst (own_list t rs cs)) /\ incl (map fst (own_list t rs cs)) (specials rs).
Proof.
  intros Hc Hs. split.
  - unfold own_list. rewrite map_flat. apply nodup_flat.
    + now apply NoDup_map_inv in Hc.
    + intros [l k] _. cbn [fst]. destruct (geti rs l) as [[name [|]]|]; repeat constructor; auto.
    + intros [l k] [l' k'] n Hx Hy. cbn [fst snd]. destruct (geti rs l) as [[name [|]]|] eqn:E; cbn [map fst In]; try contradiction.
      destruct (geti rs l') as [[name' [|]]|] eqn:E'; cbn [map fst In]; try contradiction. intros [<-|[]] [<-|[]].
      pose proof (nodup_map_inj _ _ _ _ Hs (special_in _ _ _ E) (special_in _ _ _ E') eq_refl) as X. injection X as <-.
      apply (nodup_map_inj fst cs); auto.
  - intros n Hn. apply in_map_iff in Hn as (r & <- & Hr). apply in_own in Hr as (l & k & _ & E & _). apply in_map_iff. exists (l, (fst r, true)). split; [reflexivity|]. now apply special_in.
Qed.
Lemma generic_names g cs : NoDup (map fst cs) -> NoDup (map snd g) -> NoDup (map fst (generic_list g cs)) /\ incl (map fst (generic_list g cs)) (map snd g).
Proof.
  intros Hc Hs. split.
  - unfold generic_list. rewrite map_flat. apply nodup_flat.
    + now apply NoDup_map_inv in Hc.
    + intros [l k] _. cbn [fst]. destruct (geti g l) as [name|]; repeat constructor; auto.
    + intros [l k] [l' k'] n Hx Hy. cbn [fst snd]. destruct (geti g l) as [name|] eqn:E; cbn [map fst In]; try contradiction.
      destruct (geti g l') as [name'|] eqn:E'; cbn [map fst In]; try contradiction. intros [<-|[]] [<-|[]].
      pose proof (nodup_map_inj snd g _ _ Hs (geti_in _ _ _ E) (geti_in _ _ _ E') eq_refl) as X. injection X as <-.
      apply (nodup_map_inj fst cs); auto.
  - intros n Hn. apply in_map_iff in Hn as (r & <- & Hr). apply in_generic in Hr as (l & k & _ & E & _). apply in_map_iff. exists (l, fst r). split; [reflexivity|]. now apply geti_in.
Qed.
Lemma map_concat {A K} (f : A -> K) ls : map f (concat ls) = concat (map (map f) ls).
Proof. induction ls as [|x l IH]; [reflexivity|]. cbn [concat map]. now rewrite map_app, IH. Qed.
Lemma compile_list_names cs ts g : NoDup (map fst cs) -> NoDup (concat (all_specials ts) ++ map snd g) ->
  NoDup (map fst (concat (targets_list cs ts) ++ generic_list g cs)) /\ incl (map fst (concat (targets_list cs ts) ++ generic_list g cs)) (concat (all_specials ts) ++ map snd g).
Proof.
  assert (J : forall (a : list (list bytes)) b, concat a ++ b = concat (a ++ [b])) by (intros; rewrite concat_app; cbn [concat]; now rewrite app_nil_r).
  rewrite map_app, map_concat, !J. intros Hc H. apply nodup_pieces; [|exact H]. apply Forall2_app.
  - rewrite concat_app in H. apply nodup_parts in H as (H & _ & _). revert H. induction ts as [|[t rs] ts IH]; intros H; [constructor|]. cbn [all_specials map concat snd] in H. apply nodup_parts in H as (H1 & H2 & _).
    cbn [targets_list map fst snd]. constructor; [|exact (IH H2)]. destruct t as [t|t]; [split; [constructor|intros x []]|]. cbn [map snd]. now apply own_names.
  - rewrite concat_app in H. apply nodup_parts in H as (_ & H & _). cbn [concat] in H. rewrite app_nil_r in H. constructor; [|constructor]. now apply generic_names.
Qed.

(** ** the rules of the projects *)
Definition args_atoms (t : btarget) (l : lang) (special : bool) : list atom := if special then Chars (shell_line (b_flags t l)) else [Var (B "ARGS")].
Record rules_of (w : wk) (rl : list rrule) (nd : named) : Prop := {
  rf_targets : map fst (nd_targets nd) = cp_targets (nd_proj nd);
  rf_compile : forall t rs, In (CBuild t, rs) (nd_targets nd) -> map fst rs = map fst (b_count t) /\
    forall l name sp, In (l, (name, sp)) rs -> compile_name name /\ exists k, In (l, k) (cp_comps (nd_proj nd)) /\ In (name, compiler_vars (args_atoms t l sp) l k) rl;
  rf_link : forall l k, In (l, k) (cp_comps (nd_proj nd)) -> In (nd_prefix nd ++ B "_" ++ lang_name l ++ B "_linker", linker_vars k) rl;
  rf_static : forall k, static_comp (cp_comps (nd_proj nd)) [LC; LCpp; LObjc; LNasm] = Some k -> In (nd_prefix nd ++ B "_" ++ B "static" ++ B "_linker", static_vars w k) rl;
  rf_prefix : forallb rule_char (nd_prefix nd) = true }.
Lemma rules_of_more w rl rl' nd : incl rl rl' -> rules_of w rl nd -> rules_of w rl' nd.
Proof.
  intros H [H1 H2 H3 H4 H5]. constructor; auto. intros t rs Hi. destruct (H2 t rs Hi) as [A C]. split; [exact A|]. intros l name sp Hl. destruct (C l name sp Hl) as (C1 & k & C2 & C3). split; [exact C1|]. exists k. auto.
Qed.
Definition fine_rule (r : rrule) : Prop :=
  exists cmd rest, snd r = (B "command", cmd) :: rest /\ cmd <> [] /\ Forall (fun x => In (fst x) [B "deps"; B "depfile"; B "description"]) rest.
Lemma joina_nonempty a l : a <> [] -> joina (a :: l) <> [].
Proof. intros H. destruct l; [exact H|]. rewrite joina_cons by discriminate. destruct a; [congruence|discriminate]. Qed.
Lemma bare_nonempty s : bare_word s -> Chars s <> []. Proof. intros [_ H]. destruct s; [discriminate H|discriminate]. Qed.
Lemma compiler_fine n a l k : ok_comp k -> fine_rule (n, compiler_vars a l k).
Proof.
  intros [(Hn & Hb) _ _]. eexists _, _. split; [reflexivity|]. split.
  - destruct (k_cmd k) as [|s r]; [congruence|]. cbn [map app]. apply joina_nonempty, bare_nonempty. now inversion Hb.
  - destruct (gcc_like (k_type k)); repeat (apply Forall_cons; [cbn [fst In]; auto|]); apply Forall_nil.
Qed.
Lemma linker_fine n k : ok_comp k -> fine_rule (n, linker_vars k).
Proof.
  intros [(Hn & Hb) _ _]. eexists _, _. split; [reflexivity|]. split.
  - destruct (k_cmd k) as [|s r]; [congruence|]. cbn [map app]. apply joina_nonempty, bare_nonempty. now inversion Hb.
  - repeat (apply Forall_cons; [cbn [fst In]; auto|]); apply Forall_nil.
Qed.
Lemma static_fine n w k : bare_word (wk_argv0 w) -> fine_rule (n, static_vars w k).
Proof.
  intros Hb. eexists _, _. split; [reflexivity|]. split; [|repeat (apply Forall_cons; [cbn [fst In]; auto|]); apply Forall_nil].
  cbn [app]. now apply joina_nonempty, bare_nonempty.
Qed.
Lemma rules_fine w prefix ts g cs : bare_word (wk_argv0 w) -> Forall (fun x => ok_comp (snd x)) cs ->
  Forall fine_rule ((concat (targets_list cs ts) ++ generic_list g cs) ++ linker_list prefix cs ++ static_list w prefix cs).
Proof.
  intros Ha Hc. rewrite Forall_forall in Hc. apply Forall_forall. intros [n vs] Hr. apply in_app_or in Hr as [Hr|Hr]; apply in_app_or in Hr as [Hr|Hr].
  - apply in_concat in Hr as (l & Hl & Hr). apply in_map_iff in Hl as ([t rs] & <- & _). cbn [fst snd] in Hr. destruct t; [contradiction|].
    apply in_own in Hr as (l & k & Hi & _ & E). cbn [snd] in E. subst vs. apply compiler_fine, (Hc _ Hi).
  - apply in_generic in Hr as (l & k & Hi & _ & E). cbn [snd] in E. subst vs. apply compiler_fine, (Hc _ Hi).
  - apply in_map_iff in Hr as ([l k] & E & Hi). injection E as <- <-. apply linker_fine, (Hc _ Hi).
  - unfold static_list in Hr. destruct (static_comp _ _); [|contradiction]. destruct Hr as [E|[]]. injection E as <- <-. now apply static_fine.
Qed.
Record good_proj (w : wk) (p : cproj) : Prop := {
  gp_langs : NoDup (map fst (cp_comps p));
  gp_comps : Forall (fun x => ok_comp (snd x)) (cp_comps p);
  gp_targets : forall t, In (CBuild t) (cp_targets p) -> ok_btarget w (cp_comps p) t }.
Lemma link_list_names w prefix cs : NoDup (map fst cs) -> NoDup (map fst (linker_list prefix cs ++ static_list w prefix cs)) /\
  forall r, In r (map fst (linker_list prefix cs ++ static_list w prefix cs)) -> exists k, In k KINDS /\ r = prefix ++ B "_" ++ k ++ B "_linker".
Proof.
  intros Hc. assert (L : map fst (linker_list prefix cs) = map (fun l => prefix ++ B "_" ++ lang_name l ++ B "_linker") (map fst cs)) by (unfold linker_list; rewrite !map_map; reflexivity).
  assert (T : map fst (static_list w prefix cs) = [] \/ map fst (static_list w prefix cs) = [prefix ++ B "_" ++ B "static" ++ B "_linker"])
    by (unfold static_list; destruct (static_comp _ _); auto).
  rewrite map_app, L. split.
  - apply nodup_both.
    + clear L T. induction Hc as [|l ls Hl Hc IH]; [constructor|]. cbn [map]. constructor; [|exact IH]. intros X. apply in_map_iff in X as (l' & E & Hi).
      apply kinds_apart in E as [_ E]; try apply lang_kind. apply Hl. destruct l, l'; try discriminate E; exact Hi.
    + destruct T as [-> | ->]; repeat constructor. auto.
    + intros x Hx Hy. apply in_map_iff in Hx as (l & <- & _). destruct T as [T|T]; rewrite T in Hy; [contradiction|]. destruct Hy as [E|[]].
      apply kinds_apart in E as [_ E]; [|cbn; auto 12|apply lang_kind]. destruct l; discriminate E.
  - intros r Hr. apply in_app_or in Hr as [Hr|Hr].
    + apply in_map_iff in Hr as (l & <- & _). exists (lang_name l). split; [apply lang_kind|reflexivity].
    + destruct T as [T|T]; rewrite T in Hr; [contradiction|]. destruct Hr as [<-|[]]. exists (B "static"). split; [cbn; auto 12|reflexivity].
Qed.
Lemma project_rules_ok w p prefixes taken : bare_word (wk_argv0 w) -> good_proj w p -> NoDup taken -> Forall compile_name taken ->
  exists text nd taken' rl, project_rules w p prefixes taken = Some (text, nd, prefixes ++ [nd_prefix nd], taken') /\ writes_rules rl text /\ rules_of w rl nd /\ nd_proj nd = p
    /\ ~ In (nd_prefix nd) prefixes /\ NoDup taken' /\ Forall compile_name taken' /\ incl taken taken' /\ Forall fine_rule rl /\ NoDup (map fst rl)
    /\ forall r, In r (map fst rl) -> (In r taken' /\ ~ In r taken) \/ (exists k, In k KINDS /\ r = nd_prefix nd ++ B "_" ++ k ++ B "_linker").
Proof.
  intros Ha [Gl Gc Gt] Nt Ct. unfold project_rules. destruct (uniqify_ok prefixes (escape_rule (cp_name p))) as (d & D1 & -> & D3). set (prefix := escape_rule (cp_name p) ++ d) in *.
  assert (Pc : forallb rule_char prefix = true). { unfold prefix. rewrite forallb_app. apply andb_true_iff. split; [apply escape_chars|now apply digit_rule_chars]. }
  destruct (name_targets_ok prefix (cp_targets p)) with (n := Naming taken []) as (ts & n & -> & M & [(g & Eg & Pg) Sn Sl Sc] & Fr).
  { intros t Hi. exact (ob_name _ _ _ (Gt t Hi)). }
  cbn [na_generic na_taken app] in *. rewrite app_nil_l in Eg || idtac. specialize (Sn Nt). specialize (Sc Ct).
  assert (Cn : forall x, In x (concat (all_specials ts) ++ map snd g) -> In x (na_taken n)) by (intros x Hx; eapply Permutation_in; [symmetry; exact Pg|apply in_or_app; now right]).
  assert (Nn : NoDup (taken ++ concat (all_specials ts) ++ map snd g)) by (eapply Permutation_NoDup; [exact Pg|exact Sn]).
  apply nodup_parts in Nn as (_ & Nn & Dn).
  assert (An : forall x, In x (na_taken n) -> a_name x) by (intros x Hx; rewrite Forall_forall in Sc; apply compile_name_ok; now apply Sc).
  assert (In_t : forall t rs, In (CBuild t, rs) ts -> In (CBuild t) (cp_targets p)) by (intros t rs Hi; rewrite <- M; apply in_map_iff; exists (CBuild t, rs); auto).
  assert (Spec : forall t rs x, In (t, rs) ts -> In x (specials rs) -> In x (concat (all_specials ts))).
  { intros t rs x Hi Hx. apply in_concat. exists (specials rs). split; [|exact Hx]. apply in_map_iff. exists (t, rs). auto. }
  destruct (targets_rules_ok (cp_comps p) ts Gc) as (own & -> & W1).
  { intros t rs Hi. pose proof (Gt t (In_t _ _ Hi)) as Ot. destruct (Fr t rs Hi) as [Fk _]. split; [intros l Hl; apply (ob_langs _ _ _ Ot); now right|]. split; [apply (ob_flags _ _ _ Ot)|].
    split; [exact Fk|]. apply Forall_forall. intros x Hx. apply An, Cn, in_or_app. left. eapply Spec; eauto. }
  rewrite Eg. destruct (generic_rules_ok g (cp_comps p) Gc) as (gen & -> & W2). { apply Forall_forall. intros x Hx. apply An, Cn, in_or_app. now right. }
  destruct (linker_rules_ok prefix (cp_comps p) Pc Gc) as (lnk & -> & W3).
  destruct (static_rule_ok w prefix (cp_comps p) Ha Gc) as (sta & -> & W4). { apply (link_name_ok prefix (B "static") Pc). cbn; auto 12. }
  destruct (compile_list_names (cp_comps p) ts g Gl Nn) as [N1 I1]. destruct (link_list_names w prefix (cp_comps p) Gl) as [N2 I2].
  eexists _, (Named prefix p ts), (na_taken n), ((concat (targets_list (cp_comps p) ts) ++ generic_list g (cp_comps p)) ++ linker_list prefix (cp_comps p) ++ static_list w prefix (cp_comps p)).
  cbn [nd_prefix nd_proj nd_targets]. split; [reflexivity|]. split; [rewrite <- app_assoc; repeat apply writes_app; assumption|]. split; [|split; [reflexivity|split; [exact D3|split; [exact Sn|split; [exact Sc|split; [|split; [now apply rules_fine|split]]]]]]].
  - constructor; cbn [nd_prefix nd_proj nd_targets].
    + exact M.
    + intros t rs Hi. destruct (Fr t rs Hi) as [Fk Fg]. split; [exact Fk|]. intros l name sp Hl.
      assert (Hkey : In l (map fst rs)) by (apply in_map_iff; exists (l, (name, sp)); auto).
      assert (Hcl : In l (map fst (cp_comps p))). { apply (ob_langs _ _ _ (Gt t (In_t _ _ Hi))). right. now rewrite <- Fk. }
      apply in_map_iff in Hcl as ([l' k] & E & Hk). cbn [fst] in E. subst l'.
      assert (Nk : NoDup (map fst rs)). { rewrite Fk. apply (ob_langs _ _ _ (Gt t (In_t _ _ Hi))). }
      pose proof (geti_spec rs l (name, sp) Nk Hl) as Gi. destruct sp.
      * split. { rewrite Forall_forall in Sc. apply Sc, Cn, in_or_app. left. eapply Spec; [exact Hi|]. apply in_map_iff. exists (l, (name, true)). split; [reflexivity|]. now apply special_in. }
        exists k. split; [exact Hk|]. apply in_or_app. left. apply in_or_app. left. apply in_concat. exists (own_list t rs (cp_comps p)). split; [apply in_map_iff; exists (CBuild t, rs); auto|].
        apply in_flat_map. exists (l, k). split; [exact Hk|]. cbn [fst snd]. rewrite Gi. now left.
      * specialize (Fg l name Hl). rewrite Eg in Fg. split. { rewrite Forall_forall in Sc. apply Sc, Cn, in_or_app. right. apply in_map_iff. exists (l, name). auto. }
        exists k. split; [exact Hk|]. apply in_or_app. left. apply in_or_app. right. apply in_flat_map. exists (l, k). split; [exact Hk|]. cbn [fst snd].
        rewrite (geti_spec g l name); [now left| |exact Fg]. rewrite <- Eg. apply Sl. constructor.
    + intros l k Hi. apply in_or_app. right. apply in_or_app. left. apply in_map_iff. exists (l, k). auto.
    + intros k E. apply in_or_app. right. apply in_or_app. right. unfold static_list. rewrite E. now left.
    + exact Pc.
  - intros x Hx. eapply Permutation_in; [symmetry; exact Pg|]. apply in_or_app. now left.
  - rewrite map_app. apply nodup_both; [exact N1|exact N2|]. intros x Hx Hy. destruct (I2 x Hy) as (k & Hk & E).
    apply (compile_not_link x); [|exists prefix, k; auto]. rewrite Forall_forall in Sc. now apply Sc, Cn, I1.
  - intros r Hr. rewrite map_app in Hr. apply in_app_or in Hr as [Hr|Hr]; [left|right; now apply I2]. apply I1 in Hr. split; [now apply Cn|]. intros X. now apply (Dn r X).
Qed.
Lemma projects_rules_ok w : bare_word (wk_argv0 w) -> forall ps prefixes taken, (forall p, In p ps -> cp_ok p = true -> good_proj w p) -> NoDup taken -> Forall compile_name taken ->
  exists text nds rl, projects_rules w ps prefixes taken = Some (text, nds) /\ writes_rules rl text /\ Forall (rules_of w rl) nds /\ map nd_proj nds = filter cp_ok ps
    /\ Forall fine_rule rl /\ NoDup (map fst rl)
    /\ forall r, In r (map fst rl) -> (compile_name r /\ ~ In r taken) \/ (exists pre k, In k KINDS /\ r = pre ++ B "_" ++ k ++ B "_linker" /\ ~ In pre prefixes /\ forallb rule_char pre = true).
Proof.
  intros Ha. induction ps as [|p ps IH]; intros prefixes taken G Nt Ct; cbn [projects_rules filter].
  - exists [], [], []. split; [reflexivity|]. split; [apply writes_nil|]. split; [constructor|]. split; [reflexivity|]. split; [constructor|]. split; [constructor|]. intros r [].
  - destruct (cp_ok p) eqn:Ep; [|apply IH; auto; intros; apply G; auto; now right].
    destruct (project_rules_ok w p prefixes taken Ha (G p (or_introl eq_refl) Ep) Nt Ct) as (text & nd & taken' & rl & -> & Wr & Rf & En & Fp & Nt' & Ct' & It & Fi & Nr & Kr).
    destruct (IH (prefixes ++ [nd_prefix nd]) taken') as (text2 & nds & rl2 & -> & Wr2 & Rf2 & En2 & Fi2 & Nr2 & Kr2); auto. { intros; apply G; auto; now right. }
    exists (text ++ text2), (nd :: nds), (rl ++ rl2). split; [reflexivity|]. split; [now apply writes_app|]. split.
    + constructor; [eapply rules_of_more; [|exact Rf]; apply incl_appl, incl_refl|]. eapply Forall_impl; [|exact Rf2]. intros x. apply rules_of_more. apply incl_appr, incl_refl.
    + split; [cbn [map]; now rewrite En, En2|]. split; [apply Forall_app; auto|]. split.
      * rewrite map_app. apply nodup_both; auto. intros x Hx Hy. destruct (Kr x Hx) as [[X1 X2]|(k & X1 & X2)], (Kr2 x Hy) as [[Y1 Y2]|(pre & j & Y1 & Y2 & Y3 & Y4)].
        -- contradiction.
        -- apply (compile_not_link x); [rewrite Forall_forall in Ct'; auto|exists pre, j; auto].
        -- apply (compile_not_link x); [auto|exists (nd_prefix nd), k; auto].
        -- rewrite X2 in Y2. apply kinds_apart in Y2 as [<- _]; auto. apply Y3. apply in_or_app. right. now left.
      * intros r Hr. rewrite map_app in Hr. apply in_app_or in Hr as [Hr|Hr].
        -- destruct (Kr r Hr) as [[X1 X2]|(k & X1 & X2)]; [left; split; [rewrite Forall_forall in Ct'; auto|exact X2]|right]. exists (nd_prefix nd), k. repeat split; auto. apply (rf_prefix _ _ _ Rf).
        -- destruct (Kr2 r Hr) as [[X1 X2]|(pre & j & X1 & X2 & X3 & X4)]; [left; split; [exact X1|intros X; apply X2, It, X]|right]. exists pre, j. repeat split; auto. intros X. apply X3. apply in_or_app. now left.
Qed.
