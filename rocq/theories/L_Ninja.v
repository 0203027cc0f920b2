(** Lemmas about the build file with compiled and linked targets: its statements and what they say. *)
From Coq Require Import Lia Permutation.
From Verif Require Import Base S_Path S_Escape M_Escape L_Escape M_Path L_Path M_Format S_Format L_Format M_Toolchain M_Backend S_Backend L_Places S_Tree S_Env S_Manifest L_Meaning L_Spelling L_Backend L_BuildFile L_Words M_Compile S_Compile L_Compile L_Rules L_Naming.
Local Arguments B _ : simpl never.

(** ** build statements *)
Record rawb := Raw { r_outs : list bytes; r_rule : bytes; r_ins : list bytes; r_imp : list bytes; r_ord : list bytes; r_own : list (bytes * bytes) }.
Definition raw_stmt (r : rawb) : stmt := SBuild (map Chars (r_outs r)) [] (r_rule r) (map Chars (r_ins r)) (map Chars (r_imp r)) (map Chars (r_ord r)) (chars_of (r_own r)).
Definition raw_build (r : rawb) : build := Build (map resolved (r_outs r)) [] (map resolved (r_ins r)) (map resolved (r_imp r)) (map resolved (r_ord r)) (r_rule r) (r_own r) None.
Definition bar (m : bytes) (l : list bytes) : bytes := match l with [] => [] | _ => m ++ words l end.
Definition raw_text (r : rawb) (w : bytes) : bytes :=
  B "build " ++ words (r_outs r) ++ B ": " ++ r_rule r ++ B " " ++ words (r_ins r) ++ bar (B " | ") (r_imp r) ++ bar (B " || ") (r_ord r) ++ [NL] ++ w.
Lemma raw_spelled r w : r_outs r <> [] -> Forall path_ok (r_outs r) -> Forall path_ok (r_ins r) -> Forall path_ok (r_imp r) -> Forall path_ok (r_ord r) -> a_name (r_rule r) ->
  block (chars_of (r_own r)) w -> spelled (raw_stmt r) (raw_text r w).
Proof.
  destruct r as [outs rule ins imp ord own]. unfold raw_stmt, raw_text. cbn [r_outs r_rule r_ins r_imp r_ord r_own]. intros Ho H1 H2 H3 H4 Hr Hb.
  set (ti := match imp, ord with [], [] => [] | _, _ => B " " end). set (tm := match ord with [] => [] | _ => B " " end).
  assert (Pi : exists b'' wi, blanks b'' /\ (b'' = [] -> map Chars ins = []) /\ paths (map Chars ins) wi /\ b'' ++ wi = B " " ++ words ins ++ ti).
  { destruct ins as [|i ins].
    - exists (B " " ++ ti), []. split; [unfold ti; destruct imp; [destruct ord|]; [apply blank_space|apply blank_two..]|]. split; [discriminate|]. split; [constructor|]. now rewrite app_nil_r.
    - exists (B " "), (words (i :: ins) ++ ti). split; [apply blank_space|]. split; [discriminate|]. split; [|reflexivity]. unfold ti.
      destruct imp; [destruct ord|]; [rewrite app_nil_r; now apply paths_words|now apply paths_words_blank..]. }
  destruct Pi as (b'' & wi & Bb & Bn & Pp & Eb).
  assert (Si : section (B "|") (map Chars imp) (match imp with [] => [] | _ => B "|" ++ B " " ++ words imp ++ tm end)).
  { destruct imp as [|i imp]; [constructor|]. apply se_some; [apply blank_space| |discriminate]. unfold tm. destruct ord; [rewrite app_nil_r; now apply paths_words|now apply paths_words_blank]. }
  assert (So : section (B "||") (map Chars ord) (match ord with [] => [] | _ => B "||" ++ B " " ++ words ord end)).
  { destruct ord as [|i ord]; [constructor|]. apply se_some; [apply blank_space|now apply paths_words|discriminate]. }
  pose proof (sp_build (B " ") (map Chars outs) (words outs) [] [] (B " ") rule b'' (map Chars ins) wi (map Chars imp) _ (map Chars ord) _ [NL] (chars_of own) w
    blank_space ltac:(discriminate) ltac:(destruct outs; [congruence|discriminate]) (paths_words _ H1) (se_none _) blank_space Hr Bb Bn Pp Si So end_nl Hb) as X.
  refine (eq_ind _ (spelled _) X _ _). cbn [app]. rewrite (app_assoc b''), Eb. unfold bar, ti, tm. destruct imp, ord; rewrite <- !app_assoc; reflexivity.
Qed.
(** a name for others, without a blank before the bars *)
Lemma order_spelled n l : path_ok n -> l <> [] -> Forall path_ok l ->
  spelled (raw_stmt (Raw [n] (B "phony") [] [] l [])) (B "build " ++ nesc n ++ B ": phony || " ++ words l ++ [NL]).
Proof.
  intros Hn Nl Hl. pose proof (sp_build (B " ") [Chars n] (words [n]) [] [] (B " ") (B "phony") (B " ") [] [] [] [] (map Chars l) (B "||" ++ B " " ++ words l) [NL] [] []) as X.
  assert (Y : spelled (SBuild [Chars n] [] (B "phony") [] [] (map Chars l) [])
    (B "build" ++ B " " ++ words [n] ++ [] ++ B ":" ++ B " " ++ B "phony" ++ B " " ++ [] ++ [] ++ (B "||" ++ B " " ++ words l) ++ [NL] ++ [])).
  { apply X; auto using blank_space, end_nl; try discriminate; try constructor.
    - apply (paths_words [n]). now constructor.
    - discriminate.
    - reflexivity.
    - apply blank_space.
    - now apply paths_words.
    - discriminate. }
  refine (eq_ind _ (spelled _) Y _ _). rewrite <- !app_assoc. reflexivity.
Qed.

(** ** states *)
Definition plus (s : said) (R : list (bytes * list (bytes * list part))) : said := Said (vars s) (rules s ++ R) (builds s) (defaults s) (pools s).
Definition plain_stmt (x : stmt) : Prop := match x with SBuild _ _ _ _ _ _ _ | SDefault _ => True | _ => False end.
Lemma steps_plus R ss : forall s s', (forall n, last_value (rules s) n <> None -> last_value R n = None) -> Forall plain_stmt ss -> steps nodepath s ss s' -> steps nodepath (plus s R) ss (plus s' R).
Proof.
  induction ss as [|x ss IH]; intros s s' Hd Hp H; inversion H as [|? ? s1 ? ? H1 H2]; subst; [constructor|]. inversion Hp as [|? ? Px Ps]; subst.
  assert (R1 : rules s1 = rules s) by (destruct H1; try contradiction; reflexivity).
  assert (S1 : step nodepath (plus s R) x (plus s1 R)).
  { destruct H1 as [| | |outs outimp rule ins imp ord vs b A1 A2 A3 A4 A5 A6 A7 A8 A9 A10 A11 A12|ps qs A1 A2]; try contradiction.
    - assert (L : last_value (rules s ++ R) rule = last_value (rules s) rule) by (rewrite last_value_app, (Hd rule A1); reflexivity).
      assert (E : sees (plus s R) b = sees s b) by (unfold sees, plus; cbn [rules vars]; now rewrite A2, L).
      apply (st_build nodepath (plus s R)); auto; cbn [plus rules]; [now rewrite L|now rewrite E].
    - apply (st_default nodepath (plus s R)); auto. }
  econstructor; [exact S1|]. apply IH; auto. now rewrite R1.
Qed.
Lemma last_value_none {V} (d : list (bytes * V)) n : ~ In n (map fst d) -> last_value d n = None.
Proof.
  intros H. induction d as [|[k v] d IH]; [reflexivity|]. change ((k, v) :: d) with ([(k, v)] ++ d). rewrite last_value_app, IH by (intros X; apply H; now right).
  rewrite last_value_one. destruct (beqb_spec k n) as [->|]; [exfalso; apply H; now left|reflexivity].
Qed.
Lemma last_value_some {V} (d : list (bytes * V)) n v : NoDup (map fst d) -> In (n, v) d -> last_value d n = Some v.
Proof.
  induction d as [|[k x] d IH]; intros N Hi; [contradiction|]. inversion N as [|? ? Nk Nd]; subst. change ((k, x) :: d) with ([(k, x)] ++ d). rewrite last_value_app.
  destruct Hi as [E|Hi]; [injection E as -> ->|].
  - rewrite last_value_none by exact Nk. rewrite last_value_one, beqb_refl. reflexivity.
  - now rewrite (IH Nd Hi).
Qed.
Lemma parts_names rl : map fst (map rule_parts rl) = map fst rl.
Proof. rewrite map_map. reflexivity. Qed.
Lemma rules_steps rl : forall s, NoDup (map fst rl) -> (forall n, In n (map fst rl) -> last_value (rules s) n = None) -> Forall fine_rule rl ->
  steps nodepath s (map rule_stmt rl) (plus s (map rule_parts rl)).
Proof.
  induction rl as [|[n vs] rl IH]; intros s N D F.
  - destruct s as [a b c d e]. unfold plus. cbn. rewrite app_nil_r. constructor.
  - inversion N as [|? ? Nn Nr]; subst. inversion F as [|? ? (cmd & rest & E & Hc & Hf) Fr]; subst. cbn [snd] in E. subst vs.
    assert (Na : forall k v, In (k, v) ((B "command", cmd) :: rest) -> In k [B "command"; B "deps"; B "depfile"; B "description"]).
    { intros k v [X|X]; [injection X as <- _; now left|]. rewrite Forall_forall in Hf. right. exact (Hf _ X). }
    assert (No : forall k, ~ In k [B "command"; B "deps"; B "depfile"; B "description"] -> ~ sets k ((B "command", cmd) :: rest)) by (intros k Hk (v & Hv & _); apply Hk; eauto).
    cbn [map rule_stmt fst snd]. eapply ss_more.
    + apply st_rule; [apply D; now left|exists cmd; split; [now left|exact Hc]|]. split; intros X; exfalso; revert X; apply No; cbn [In]; intuition discriminate.
    + match goal with |- steps _ ?s1 _ _ => specialize (IH s1 Nr) end. replace (plus s (rule_parts (n, (B "command", cmd) :: rest) :: map rule_parts rl))
        with (plus (Said (vars s) (rules s ++ [rule_parts (n, (B "command", cmd) :: rest)]) (builds s) (defaults s) (pools s)) (map rule_parts rl))
        by (unfold plus; cbn [vars rules builds defaults pools]; now rewrite <- app_assoc).
      apply IH; [|exact Fr]. cbn [rules]. intros m Hm. rewrite last_value_app, last_value_one. cbn [fst]. rewrite (proj2 (beqb_neq n m)) by (intros ->; contradiction). apply D. now right.
Qed.

Lemma value_pool d : last_value (own d) (B "pool") = None -> last_value (rule d) (B "pool") = None -> innermost (scopes d) (B "pool") = None -> value nodepath d (B "pool") None.
Proof. intros H1 H2 H3. rewrite <- H3. apply v_scope; [intros [X|[X|X]]; discriminate X|auto|auto]. Qed.
Record raw_ok (s : said) (r : rawb) : Prop := {
  ro_outs : Forall nameable (r_outs r);
  ro_rule : exists vs, last_value (rules s) (r_rule r) = Some vs /\ last_value vs (B "pool") = None;
  ro_ins : Forall nameable (r_ins r) /\ Forall nameable (r_imp r) /\ Forall nameable (r_ord r);
  ro_own : last_value (r_own r) (B "pool") = None }.
Definition adds (s : said) (bs : list build) (ds : list bytes) : said := Said (vars s) (rules s) (builds s ++ bs) (defaults s ++ ds) (pools s).
Lemma raw_step s r : raw_ok s r -> innermost [vars s] (B "pool") = None -> NoDup (concat (map all_outs (builds s)) ++ all_outs (raw_build r)) ->
  step nodepath s (raw_stmt r) (adds s [raw_build r] []).
Proof.
  intros [H1 (vs & H2 & H2') (H3 & H4 & H5) H6] Hv Hn. unfold adds. rewrite app_nil_r. apply nodup_parts in Hn as (_ & N1 & N2).
  eapply (st_build nodepath s) with (b := raw_build r); cbn [raw_build b_rule b_vars b_outs b_outimp b_ins b_imp b_ord b_pool].
  - congruence.
  - reflexivity.
  - symmetry. apply expand_own.
  - now apply nameable_places.
  - constructor.
  - now apply nameable_places.
  - now apply nameable_places.
  - now apply nameable_places.
  - exact N1.
  - intros p b' Hp Hb Hi. apply (N2 p); [|exact Hp]. apply in_concat. exists (all_outs b'). split; [now apply in_map|exact Hi].
  - apply value_pool; unfold sees; cbn [own rule scopes raw_build b_vars b_rule]; [exact H6|now rewrite H2|exact Hv].
  - discriminate.
Qed.
Lemma adds_adds s bs ds bs' ds' : adds (adds s bs ds) bs' ds' = adds s (bs ++ bs') (ds ++ ds').
Proof. unfold adds. cbn [vars rules builds defaults pools]. now rewrite !app_assoc. Qed.
Lemma adds_none s : adds s [] [] = s. Proof. destruct s as [a b c d e]. unfold adds. cbn. now rewrite !app_nil_r. Qed.
Lemma raw_steps rs : forall s, Forall (raw_ok s) rs -> innermost [vars s] (B "pool") = None -> NoDup (concat (map all_outs (builds s)) ++ concat (map all_outs (map raw_build rs))) ->
  steps nodepath s (map raw_stmt rs) (adds s (map raw_build rs) []).
Proof.
  induction rs as [|r rs IH]; intros s F Hv Hn; [rewrite adds_none; constructor|]. inversion F as [|? ? Fr Fs]; subst. cbn [map concat] in *.
  eapply ss_more; [apply raw_step; [exact Fr|exact Hv|]|].
  - rewrite app_assoc in Hn. now apply nodup_parts in Hn.
  - change (raw_build r :: map raw_build rs) with ([raw_build r] ++ map raw_build rs). change (@nil bytes) with ((@nil bytes) ++ []) at 2. rewrite <- adds_adds. apply IH.
    + eapply Forall_impl; [|exact Fs]. intros x [A1 A2 A3 A4]. constructor; auto.
    + exact Hv.
    + unfold adds. cbn [builds]. rewrite map_app, concat_app. cbn [map concat]. now rewrite app_nil_r, <- app_assoc.
Qed.

(** ** what is written for a build target *)
Definition imp_names (root : bytes) (t : btarget) : list bytes := if many_order t then [rel root (order_file t)] else [].
Definition ord_names (t : btarget) : list bytes := if many_order t then [] else dedup (b_order t).
Definition src_rule (rs : rulemap) (src : bytes) : bytes := match language_of src with Some l => match geti rs l with Some (name, _) => name | None => [] end | None => [] end.
Definition src_own (t : btarget) (rs : rulemap) (src : bytes) : list (bytes * bytes) :=
  match language_of src with Some l => match geti rs l with Some (_, false) => [(B "ARGS", shell_line (b_flags t l))] | _ => [] end | None => [] end.
Definition src_raw (w : wk) (t : btarget) (rs : rulemap) (src : bytes) : rawb :=
  Raw [rel (wk_build_root w) (object_file w t src)] (src_rule rs src) [rel (wk_build_root w) src] (imp_names (wk_build_root w) t) (ord_names t) (src_own t rs src).
Definition order_raw (w : wk) (t : btarget) : rawb := Raw [rel (wk_build_root w) (order_file t)] (B "phony") [] [] (dedup (b_order t)) [].
Definition kind_of (t : btarget) : bytes := match b_type t with StaticLib => B "static" | _ => lang_name (b_lang t) end.
Definition link_raw (w : wk) (nd : named) (t : btarget) : rawb :=
  Raw [rel (wk_build_root w) (b_path t)] (nd_prefix nd ++ B "_" ++ kind_of t ++ B "_linker")
    (map (rel (wk_build_root w)) (b_objects t) ++ map (fun src => rel (wk_build_root w) (object_file w t src)) (b_src t))
    (imp_names (wk_build_root w) t ++ (match b_type t with StaticLib => [] | _ => map (rel (wk_build_root w)) (b_with t ++ b_whole t) end) ++ map (raw_item (wk_build_root w)) (b_depends t))
    (ord_names t)
    (match b_type t with StaticLib => [] | _ => [(B "LINK_ARGS", shell_line (b_link_flags t))] end).
Definition target_raws (w : wk) (nd : named) (t : btarget) (rs : rulemap) : list rawb :=
  (if many_order t then [order_raw w t] else []) ++ map (src_raw w t rs) (b_src t) ++ [link_raw w nd t].
Definition target_stmts (w : wk) (nd : named) (t : btarget) (rs : rulemap) : list stmt :=
  map raw_stmt (target_raws w nd t rs) ++ (if b_default t then [SDefault [Chars (rel (wk_build_root w) (b_path t))]] else []).
Definition own_text (own : list (bytes * bytes)) : bytes := concat (map (fun x => B " " ++ fst x ++ B " = " ++ desc (snd x) ++ [NL]) own).
Definition full_text (r : rawb) : bytes := raw_text r (own_text (r_own r)).
Definition order_text (w : wk) (t : btarget) : bytes :=
  if many_order t then B "build " ++ nesc (rel (wk_build_root w) (order_file t)) ++ B ": phony || " ++ words (dedup (b_order t)) ++ [NL] else [].
Definition target_text (w : wk) (nd : named) (t : btarget) (rs : rulemap) : bytes :=
  order_text w t ++ concat (map (fun src => full_text (src_raw w t rs src)) (b_src t)) ++ full_text (link_raw w nd t)
  ++ (if b_default t then B "default " ++ words [rel (wk_build_root w) (b_path t)] ++ [NL] ++ [NL] else []).

Lemma dedup_nil l : dedup l = [] <-> l = [].
Proof. destruct (dedup_spec l) as [H _]. split; [|intros ->; reflexivity]. intros E. destruct l as [|x l]; [reflexivity|]. assert (X : In x (dedup (x :: l))) by (apply H; now left). rewrite E in X. destruct X. Qed.
Lemma nesc_app a b : nesc (a ++ b) = nesc a ++ nesc b.
Proof. induction a as [|c a IH]; [reflexivity|]. cbn [app nesc]. now rewrite IH, app_assoc. Qed.
Lemma order_word r : nesc (r ++ B "-order_deps") = nesc r ++ B "-order_deps". Proof. rewrite nesc_app. reflexivity. Qed.
Lemma words_one s : words [s] = nesc s. Proof. reflexivity. Qed.

Record target_facts (w : wk) (cs : list (lang * comp)) (t : btarget) : Prop := {
  tf_root : is_abs (wk_build_root w) = true;
  tf_path : a_file (b_path t);
  tf_order : rel (wk_build_root w) (order_file t) = rel (wk_build_root w) (b_path t) ++ B "-order_deps" /\ a_file (order_file t);
  tf_src : Forall (fun src => a_file src /\ a_file (object_file w t src) /\ placed w t src /\ exists l, language_of src = Some l /\ In l (map fst (b_count t))) (b_src t);
  tf_deps : Forall nameable (dedup (b_order t)) }.
Lemma target_facts_ok w cs t : is_abs (wk_build_root w) = true -> ok_btarget w cs t -> target_facts w cs t.
Proof.
  intros Hr [P1 P2 P3 P4 P5 P6 P7 P8 P9 P10 P11]. destruct P1 as (Pf & Pc & Pb). inversion P3 as [|? ? (R1 & R2 & R3) P3']; subst.
  destruct (order_ok w t Hr R3 (proj1 Pf) Pc Pb) as [O1 O2].
  constructor; auto.
  - apply Forall_forall. intros src Hs. rewrite Forall_forall in P4. destruct (P4 src Hs) as [(Sf & Sc) (l & L1 & L2 & L3) Sd Sn].
    assert (Pl : placed w t src).
    { constructor; auto. destruct Sf as (A1 & _ & _ & A4). auto. }
    split; [exact Sf|]. split; [now apply object_is_file|]. split; [exact Pl|]. exists l. split; [now apply language_of_spec|exact L3].
  - apply Forall_forall. intros x Hx. rewrite Forall_forall in P7. apply label_nameable, P7. now apply (proj1 (dedup_spec (b_order t))).
Qed.
Lemma imp_nameable w cs t : target_facts w cs t -> Forall nameable (imp_names (wk_build_root w) t) /\ Forall nameable (ord_names t).
Proof.
  intros [H1 H2 (H3 & H3') H4 H5]. unfold imp_names, ord_names. destruct (many_order t); split; auto. constructor; [now apply file_nameable|constructor].
Qed.
Lemma args_name n : In n [B "ARGS"; B "LINK_ARGS"] -> a_name n.
Proof. intros [<-|[<-|[]]]; (split; [discriminate|reflexivity]). Qed.
Lemma own_text_block own : Forall (fun x => In (fst x) [B "ARGS"; B "LINK_ARGS"] /\ exists args, snd x = shell_line args /\ Forall line_chars args) own -> block (chars_of own) (own_text own).
Proof.
  induction 1 as [|[n v] own [Hn (args & Ev & Ha)] Ho IH]; [constructor|]. cbn [fst snd] in *. subst v. unfold own_text, chars_of in *. cbn [map fst snd concat].
  rewrite <- !app_assoc. apply block_text; [now apply args_name|now apply written_value, shell_line_chars|apply line_no_blank'|exact IH].
Qed.

Definition opt_text (l : list bytes) : option bytes := match l with [] => None | _ => Some (words l) end.
Lemma opt_bar m l : match opt_text l with Some x => m ++ x | None => [] end = bar m l. Proof. now destruct l. Qed.
Lemma write_sources_ok c nd t rs : target_facts (cw_base c) (cp_comps (nd_proj nd)) t ->
  (forall l, In l (map fst (b_count t)) -> In l (map fst (cp_comps (nd_proj nd)))) -> (forall l, Forall a_word (b_flags t l)) ->
  Forall (fun x => unix_like (k_type (snd x))) (main_comps c) -> map fst rs = map fst (b_count t) ->
  forall srcs, incl srcs (b_src t) ->
  write_sources c t (cp_comps (nd_proj nd)) rs (opt_text (imp_names (wk_build_root (cw_base c)) t)) (opt_text (ord_names t)) srcs =
  Some (map (fun src => rel (wk_build_root (cw_base c)) (object_file (cw_base c) t src)) srcs, concat (map (fun src => full_text (src_raw (cw_base c) t rs src)) srcs)).
Proof.
  intros Hf Hl Ha Hm Hk. pose proof Hf as [H1 H2 _ H4 _]. rewrite Forall_forall in H4. induction srcs as [|src srcs IH]; intros Hi; [reflexivity|].
  destruct (H4 src (Hi src (or_introl eq_refl))) as (F1 & F2 & F3 & l & L1 & L2). cbn [write_sources map concat].
  rewrite L1. destruct (object_path_ok (cw_base c) (main_comps c) t src F3 Hm) as [-> _]. destruct (rel_file _ src H1 F1) as [-> _].
  destruct (geti_key rs l) as ([name sp] & Eg); [now rewrite Hk|]. rewrite Eg.
  destruct (target_args_ok (cp_comps (nd_proj nd)) t (b_count t) Hl Ha) as (args & Ea & Ga).
  rewrite IH by (intros x Hx; apply Hi; now right).
  rewrite !ninja_escape_nesc by (now apply file_nameable). rewrite !opt_bar.
  assert (Er : src_rule rs src = name) by (unfold src_rule; now rewrite L1, Eg).
  assert (Eo : src_own t rs src = if sp then [] else [(B "ARGS", shell_line (b_flags t l))]) by (unfold src_own; rewrite L1, Eg; now destruct sp).
  assert (Ev : (if sp then Some [] else match target_args (cp_comps (nd_proj nd)) t (b_count t) with Some args => match geti args l with Some a => Some (B " ARGS = " ++ a ++ [NL]) | None => None end | None => None end)
    = Some (own_text (src_own t rs src))).
  { rewrite Eo. destruct sp; [reflexivity|]. rewrite Ea, (Ga l L2). unfold own_text. cbn [map concat fst snd]. rewrite app_nil_r. reflexivity. }
  rewrite Ev. f_equal. f_equal. unfold full_text, raw_text, src_raw. cbn [r_outs r_rule r_ins r_imp r_ord r_own]. rewrite Er, !words_one. rewrite <- !app_assoc. reflexivity.
Qed.
Lemma all_items w l : is_abs (wk_build_root w) = true -> Forall ok_item l -> all (relativize_item w) l = Some (map (raw_item (wk_build_root w)) l) /\ Forall nameable (map (raw_item (wk_build_root w)) l).
Proof.
  intros Hr. induction 1 as [|i l Hi Hl [IH1 IH2]]; [split; [reflexivity|constructor]|]. cbn [all map]. rewrite IH1. destruct i as [s|p]; cbn [relativize_item raw_item].
  - split; [reflexivity|]. constructor; [now apply label_nameable|exact IH2].
  - unfold relativize. destruct (rel_file (wk_build_root w) p Hr Hi) as [-> _]. split; [reflexivity|]. constructor; [now apply file_nameable|exact IH2].
Qed.
Lemma link_implicit w nd cs t : ok_btarget w cs t -> target_facts w cs t -> Forall nameable (r_ins (link_raw w nd t)) /\ Forall nameable (r_imp (link_raw w nd t)) /\ Forall nameable (r_ord (link_raw w nd t)).
Proof.
  intros Ho Hf. destruct (imp_nameable w cs t Hf) as [N1 N2]. destruct Hf as [H1 H2 H3 H4 H5]. cbn [link_raw r_ins r_imp r_ord]. split; [|split; [|exact N2]].
  - apply Forall_app. split; [apply files_nameable; [auto|apply (ob_objects _ _ _ Ho)]|]. rewrite Forall_map. eapply Forall_impl; [|exact H4]. intros src (_ & F & _). now apply file_nameable.
  - destruct (ob_link _ _ _ Ho) as [L1 L2]. apply Forall_app. split; [exact N1|]. apply Forall_app. split; [destruct (b_type t); try constructor; now apply files_nameable|]. now apply all_items.
Qed.
Lemma write_build_target_ok c nd t rs o : is_abs (wk_build_root (cw_base c)) = true -> ok_btarget (cw_base c) (cp_comps (nd_proj nd)) t ->
  Forall (fun x => unix_like (k_type (snd x))) (main_comps c) -> map fst rs = map fst (b_count t) ->
  write_build_target c nd t rs o = Some (Out (o_text o ++ target_text (cw_base c) nd t rs) (o_files o) (o_seq o) (o_default o || b_default t)).
Proof.
  intros Hr Ho Hm Hk. pose proof (target_facts_ok _ _ _ Hr Ho) as Hf. destruct (link_implicit _ nd _ _ Ho Hf) as (N1 & N2 & N3). pose proof Hf as [_ H2 (O1 & O2) H4 H5].
  set (w := cw_base c) in *. destruct (ob_link _ _ _ Ho) as [L1 L2]. pose proof L1 as L1'. apply Forall_app in L1' as [Lw Lh]. destruct (all_items w _ Hr L2) as [Ei _].
  destruct (ob_langs _ _ _ Ho) as [_ Hl].
  unfold write_build_target. fold w. unfold relativize at 1. destruct (rel_file _ _ Hr H2) as [-> _].
  rewrite ninja_escape_nesc by (now apply file_nameable). destruct (geti_key (cp_comps (nd_proj nd)) (b_lang t)) as (k & ->); [apply Hl; now left|].
  rewrite !all_rel by auto using (ob_objects _ _ _ Ho). rewrite (join_args_ninja_words (dedup (b_order t))) by (now apply nameable_ok).
  assert (Ei1 : (if many_order t then Some (nesc (rel (wk_build_root w) (b_path t)) ++ B "-order_deps") else None) = opt_text (imp_names (wk_build_root w) t)).
  { unfold imp_names. destruct (many_order t); [|reflexivity]. cbn [opt_text]. rewrite words_one, O1, order_word. reflexivity. }
  assert (Ei2 : (if many_order t then None else match b_order t with [] => None | _ => Some (words (dedup (b_order t))) end) = opt_text (ord_names t)).
  { unfold ord_names. destruct (many_order t); [reflexivity|]. destruct (dedup (b_order t)) as [|x l] eqn:E; [apply (proj1 (dedup_nil _)) in E; rewrite E; reflexivity|].
    destruct (b_order t); [discriminate E|reflexivity]. }
  pose proof (write_sources_ok c nd t rs Hf (fun l H => Hl l (or_intror H)) (ob_flags _ _ _ Ho) Hm Hk (b_src t) (incl_refl _)) as Ws. fold w in Ws.
  cbv zeta. rewrite Ei1, Ei2, Ws, Ei.
  assert (Ek : (match b_type t with StaticLib => Some (B "static", []) | _ => match join_args_shell_ninja (b_link_flags t) with Some text => Some (lang_name (b_lang t), [NL] ++ B " LINK_ARGS = " ++ text) | None => None end end)
    = Some (kind_of t, match b_type t with StaticLib => [] | _ => [NL] ++ B " LINK_ARGS = " ++ desc (shell_line (b_link_flags t)) end)).
  { unfold kind_of. rewrite join_shell_ninja by (apply words_line, (ob_link_flags _ _ _ Ho)). now destruct (b_type t). }
  rewrite Ek. cbn [link_raw r_ins r_imp] in N1, N2. rewrite (join_args_ninja_words _ (nameable_ok _ N1)).
  assert (Em : (if many_order t then [rel (wk_build_root w) (b_path t) ++ B "-order_deps"] else []) ++ (match b_type t with StaticLib => [] | _ => map (rel (wk_build_root w)) (b_with t) ++ map (rel (wk_build_root w)) (b_whole t) end) ++ map (raw_item (wk_build_root w)) (b_depends t)
    = r_imp (link_raw w nd t)).
  { cbn [link_raw r_imp]. unfold imp_names. rewrite map_app, O1. reflexivity. }
  rewrite Em. rewrite (join_args_ninja_words (r_imp (link_raw w nd t)) (nameable_ok _ N2)).
  f_equal. f_equal. unfold target_text, order_text. f_equal. f_equal.
  { destruct (many_order t); [|reflexivity]. rewrite O1, order_word, <- !app_assoc. reflexivity. }
  f_equal. unfold full_text, raw_text. cbn [link_raw r_outs r_rule r_ins r_own r_ord]. rewrite words_one, <- ?app_assoc. rewrite opt_bar.
  change (map (rel (wk_build_root w)) (b_objects t) ++ map (fun src => rel (wk_build_root w) (object_file w t src)) (b_src t)) with (r_ins (link_raw w nd t)).
  assert (Et : (match b_type t with StaticLib => [] | _ => [NL] ++ B " LINK_ARGS = " ++ desc (shell_line (b_link_flags t)) end)
      ++ (if b_default t then [NL] ++ B "default " ++ nesc (rel (wk_build_root w) (b_path t)) ++ [NL] else []) ++ [NL]
    = [NL] ++ own_text (match b_type t with StaticLib => [] | _ => [(B "LINK_ARGS", shell_line (b_link_flags t))] end)
      ++ (if b_default t then B "default " ++ nesc (rel (wk_build_root w) (b_path t)) ++ [NL] ++ [NL] else [])).
  { unfold own_text. destruct (b_type t), (b_default t); cbn [map concat fst snd]; rewrite ?app_nil_r, <- ?app_assoc; reflexivity. }
  rewrite Et. unfold bar. reflexivity.
Qed.

(** ** it is a manifest, and what it says *)
Record fine_build (w : wk) (rl : list rrule) (nd : named) (t : btarget) (rs : rulemap) : Prop := {
  fb_ok : ok_btarget w (cp_comps (nd_proj nd)) t;
  fb_rules : rules_of w rl nd;
  fb_in : In (CBuild t, rs) (nd_targets nd);
  fb_static : b_type t = StaticLib -> static_comp (cp_comps (nd_proj nd)) [LC; LCpp; LObjc; LNasm] <> None }.
Lemma kind_in t : In (kind_of t) KINDS.
Proof. unfold kind_of. destruct (b_type t); try apply lang_kind. cbn. auto 12. Qed.
(** the rules that a target uses *)
Definition link_vars (w : wk) (k : comp) (t : btarget) : list (bytes * list atom) := match b_type t with StaticLib => static_vars w k | _ => linker_vars k end.
Lemma link_rule_in w rl nd t rs : fine_build w rl nd t rs -> exists k,
  (match b_type t with StaticLib => static_comp (cp_comps (nd_proj nd)) [LC; LCpp; LObjc; LNasm] = Some k | _ => In (b_lang t, k) (cp_comps (nd_proj nd)) end) /\
  In (r_rule (link_raw w nd t), link_vars w k t) rl.
Proof.
  intros [F1 F2 F3 F4]. cbn [link_raw r_rule]. unfold kind_of, link_vars. destruct (ob_langs _ _ _ F1) as [_ Hl].
  destruct (geti_key (cp_comps (nd_proj nd)) (b_lang t)) as (k & Ek); [apply Hl; now left|]. apply geti_in in Ek.
  destruct (b_type t); try (exists k; split; [exact Ek|exact (rf_link _ _ _ F2 _ _ Ek)]).
  destruct (static_comp _ _) as [k'|] eqn:E; [|now destruct (F4 eq_refl)]. exists k'. split; [reflexivity|exact (rf_static _ _ _ F2 _ E)].
Qed.
Lemma src_rule_in w rl nd t rs src : is_abs (wk_build_root w) = true -> fine_build w rl nd t rs -> In src (b_src t) -> exists l sp k,
  language_of src = Some l /\ geti rs l = Some (src_rule rs src, sp) /\ In (l, k) (cp_comps (nd_proj nd)) /\ compile_name (src_rule rs src) /\
  In (src_rule rs src, compiler_vars (args_atoms t l sp) l k) rl /\ src_own t rs src = if sp then [] else [(B "ARGS", shell_line (b_flags t l))].
Proof.
  intros Hr [F1 F2 F3 F4] Hs. pose proof (target_facts_ok _ _ _ Hr F1) as [_ _ _ H4 _]. rewrite Forall_forall in H4. destruct (H4 src Hs) as (_ & _ & _ & l & L1 & L2).
  destruct (rf_compile _ _ _ F2 _ _ F3) as [C1 C2]. destruct (geti_key rs l) as ([name sp] & Eg); [now rewrite C1|].
  destruct (C2 _ _ _ (geti_in _ _ _ Eg)) as (C3 & k & C4 & C5). exists l, sp, k.
  assert (Er : src_rule rs src = name) by (unfold src_rule; now rewrite L1, Eg). rewrite Er.
  split; [exact L1|]. split; [exact Eg|]. split; [exact C4|]. split; [exact C3|]. split; [exact C5|]. unfold src_own. rewrite L1, Eg. now destruct sp.
Qed.
Lemma full_spelled r : r_outs r <> [] -> Forall nameable (r_outs r) -> Forall nameable (r_ins r) -> Forall nameable (r_imp r) -> Forall nameable (r_ord r) -> a_name (r_rule r) ->
  Forall (fun x => In (fst x) [B "ARGS"; B "LINK_ARGS"] /\ exists args, snd x = shell_line args /\ Forall line_chars args) (r_own r) -> spelled (raw_stmt r) (full_text r).
Proof. intros. apply raw_spelled; auto using nameable_ok. now apply own_text_block. Qed.
Lemma src_raw_names w cs t rs src : target_facts w cs t -> In src (b_src t) ->
  Forall nameable (r_outs (src_raw w t rs src)) /\ Forall nameable (r_ins (src_raw w t rs src)) /\ Forall nameable (r_imp (src_raw w t rs src)) /\ Forall nameable (r_ord (src_raw w t rs src)).
Proof.
  intros Hf Hs. destruct (imp_nameable w cs t Hf) as [N1 N2]. destruct Hf as [H1 _ _ H4 _]. rewrite Forall_forall in H4. destruct (H4 src Hs) as (F1 & F2 & _).
  cbn [src_raw r_outs r_ins r_imp r_ord]. split; [constructor; [now apply file_nameable|constructor]|]. split; [constructor; [now apply file_nameable|constructor]|]. auto.
Qed.
Lemma target_manifest w rl nd t rs ss tx : is_abs (wk_build_root w) = true -> fine_build w rl nd t rs -> manifest ss tx ->
  manifest (target_stmts w nd t rs ++ ss) (target_text w nd t rs ++ tx).
Proof.
  intros Hr Hb Hm. pose proof Hb as [F1 F2 F3 F4]. pose proof (target_facts_ok _ _ _ Hr F1) as Hf. pose proof Hf as [_ T2 (T3 & T3') T4 T5].
  destruct (link_implicit _ nd _ _ F1 Hf) as (N1 & N2 & N3).
  assert (M1 : manifest ((if b_default t then [SDefault [Chars (rel (wk_build_root w) (b_path t))]] else []) ++ ss)
    ((if b_default t then B "default " ++ words [rel (wk_build_root w) (b_path t)] ++ [NL] ++ [NL] else []) ++ tx)).
  { destruct (b_default t); [|exact Hm]. pose proof (default_text [rel (wk_build_root w) (b_path t)] ltac:(discriminate) ltac:(constructor; [now apply file_nameable|constructor])) as X.
    pose proof (mf_statement _ _ _ _ X (mf_empty_line _ _ Hm)) as Y. rewrite <- !app_assoc in *. exact Y. }
  assert (M2 : spelled (raw_stmt (link_raw w nd t)) (full_text (link_raw w nd t))).
  { apply full_spelled; auto.
    - discriminate.
    - constructor; [now apply file_nameable|constructor].
    - apply link_name_ok; [apply (rf_prefix _ _ _ F2)|apply kind_in].
    - cbn [link_raw r_own]. destruct (b_type t); try (constructor; [|constructor]; cbn [fst snd]; split; [right; now left|]; eexists; split; [reflexivity|]; apply words_line, (ob_link_flags _ _ _ F1)). constructor. }
  pose proof (mf_statement _ _ _ _ M2 M1) as M3.
  assert (M4 : forall srcs, incl srcs (b_src t) -> forall ss tx, manifest ss tx -> manifest (map raw_stmt (map (src_raw w t rs) srcs) ++ ss) (concat (map (fun src => full_text (src_raw w t rs src)) srcs) ++ tx)).
  { induction srcs as [|src srcs IH]; intros Hi ss' tx' H; [exact H|]. cbn [map concat app]. rewrite <- app_assoc. apply mf_statement; [|apply IH; [intros x Hx; apply Hi; now right|exact H]].
    assert (Hs : In src (b_src t)) by (apply Hi; now left). destruct (src_raw_names w _ t rs src Hf Hs) as (A1 & A2 & A3 & A4).
    destruct (src_rule_in w rl nd t rs src Hr Hb Hs) as (l & sp & k & _ & _ & _ & C & _ & Eo).
    apply full_spelled; auto; [discriminate|exact (proj1 (compile_name_ok _ C))|]. cbn [src_raw r_own]. rewrite Eo. destruct sp; [constructor|].
    constructor; [|constructor]. cbn [fst snd]. split; [now left|]. eexists. split; [reflexivity|]. apply words_line, (ob_flags _ _ _ F1). }
  pose proof (M4 (b_src t) (incl_refl _) _ _ M3) as M5.
  unfold target_stmts, target_text, target_raws, order_text. rewrite !map_app, <- !app_assoc. cbn [map app] in *.
  destruct (many_order t) eqn:Eo; [|exact M5]. cbn [map app].
  assert (Nd : dedup (b_order t) <> []) by (unfold many_order in Eo; destruct (dedup (b_order t)); discriminate).
  pose proof (order_spelled (rel (wk_build_root w) (order_file t)) (dedup (b_order t)) ltac:(now apply file_nameable) Nd (nameable_ok _ T5)) as X.
  pose proof (mf_statement _ _ _ _ X M5) as Y. rewrite <- !app_assoc in *. exact Y.
Qed.

(** the rules are known *)
Record knows (s : said) (rl : list rrule) : Prop := {
  kn_phony : last_value (rules s) (B "phony") = Some [];
  kn_rules : forall n vs, In (n, vs) rl -> last_value (rules s) n = Some (map (fun x => (fst x, pieces_of (snd x))) vs);
  kn_fine : Forall fine_rule rl;
  kn_pool : innermost [vars s] (B "pool") = None }.
Lemma fine_no_pool (r : rrule) : fine_rule r -> last_value (map (fun x => (fst x, pieces_of (snd x))) (snd r)) (B "pool") = None.
Proof.
  intros (cmd & rest & E & _ & Hf). rewrite E. apply last_value_none. rewrite map_map. cbn [map fst]. intros [X|X]; [discriminate X|].
  apply in_map_iff in X as (y & Ey & Hy). rewrite Forall_forall in Hf. specialize (Hf _ Hy). cbn [fst] in Ey. rewrite Ey in Hf. repeat (destruct Hf as [Hf|Hf]; [discriminate Hf|]). destruct Hf.
Qed.
Lemma target_raw_ok s w rl nd t rs : is_abs (wk_build_root w) = true -> knows s rl -> fine_build w rl nd t rs -> Forall (raw_ok s) (target_raws w nd t rs).
Proof.
  intros Hr [K1 K2 K3 K4] Hb. pose proof Hb as [F1 F2 F3 F4]. pose proof (target_facts_ok _ _ _ Hr F1) as Hf. pose proof Hf as [_ T2 (T3 & T3') T4 T5].
  assert (Kr : forall n vs, In (n, vs) rl -> exists vs', last_value (rules s) n = Some vs' /\ last_value vs' (B "pool") = None).
  { intros n vs Hi. eexists. split; [exact (K2 _ _ Hi)|]. rewrite Forall_forall in K3. exact (fine_no_pool _ (K3 _ Hi)). }
  unfold target_raws. apply Forall_app. split; [|apply Forall_app; split].
  - destruct (many_order t); [|constructor]. constructor; [|constructor]. constructor; cbn [order_raw r_outs r_rule r_ins r_imp r_ord r_own].
    + constructor; [now apply file_nameable|constructor].
    + exists []. split; [exact K1|reflexivity].
    + split; [constructor|]. split; [constructor|exact T5].
    + reflexivity.
  - apply Forall_map, Forall_forall. intros src Hs. destruct (src_raw_names w _ t rs src Hf Hs) as (A1 & A2 & A3 & A4).
    destruct (src_rule_in w rl nd t rs src Hr Hb Hs) as (l & sp & k & _ & _ & _ & _ & C & Eo). constructor; auto.
    + cbn [src_raw r_rule]. eapply Kr; eauto.
    + cbn [src_raw r_own]. rewrite Eo. destruct sp; reflexivity.
  - destruct (link_implicit _ nd _ _ F1 Hf) as (N1 & N2 & N3). destruct (link_rule_in _ _ _ _ _ Hb) as (k & _ & C). apply Forall_cons; [|apply Forall_nil]. constructor.
    + constructor; [now apply file_nameable|constructor].
    + eapply Kr; eauto.
    + auto.
    + cbn [link_raw r_own]. destruct (b_type t); reflexivity.
Qed.
Definition target_outs (w : wk) (t : btarget) : list bytes := (if many_order t then [order_file t] else []) ++ map (object_file w t) (b_src t) ++ [b_path t].
Lemma target_places w nd cs t rs : target_facts w cs t ->
  map (place (wk_build_root w)) (concat (map all_outs (map raw_build (target_raws w nd t rs)))) = map (place (wk_build_root w)) (target_outs w t).
Proof.
  intros [H1 H2 (H3 & H3') H4 H5]. unfold target_raws, target_outs. rewrite !map_app, !concat_app, !map_app. f_equal; [|f_equal].
  - destruct (many_order t); [|reflexivity]. cbn. now rewrite rel_place.
  - induction H4 as [|src srcs (F1 & F2 & _) Hs IH]; [reflexivity|]. cbn [map concat]. rewrite map_app, IH. cbn. now rewrite rel_place.
  - cbn. now rewrite rel_place.
Qed.
Definition target_defaults (w : wk) (t : btarget) : list bytes := if b_default t then [resolved (rel (wk_build_root w) (b_path t))] else [].
Lemma target_steps s w rl nd t rs : is_abs (wk_build_root w) = true -> knows s rl -> fine_build w rl nd t rs ->
  NoDup (map (place (wk_build_root w)) (concat (map all_outs (builds s)) ++ target_outs w t)) ->
  steps nodepath s (target_stmts w nd t rs) (adds s (map raw_build (target_raws w nd t rs)) (target_defaults w t)).
Proof.
  intros Hr Hk Hb Hn. pose proof (target_facts_ok _ _ _ Hr (fb_ok _ _ _ _ _ Hb)) as Hf. unfold target_stmts.
  rewrite map_app, <- (target_places w nd _ t rs Hf), <- map_app in Hn. apply NoDup_map_inv in Hn.
  eapply steps_app; [apply raw_steps; [eapply target_raw_ok; eauto|apply (kn_pool _ _ Hk)|exact Hn]|].
  unfold target_defaults. destruct (b_default t); [|constructor]. eapply ss_more; [|constructor].
  match goal with |- step _ ?s1 _ _ => pose proof (st_default nodepath s1 [Chars (rel (wk_build_root w) (b_path t))] [resolved (rel (wk_build_root w) (b_path t))]) as X end.
  unfold adds in *. cbn [vars rules builds defaults pools app] in *. rewrite app_nil_r in *. apply X.
  - apply (nameable_places _ [_]). constructor; [|constructor]. apply file_nameable; [exact Hr|apply (tf_path _ _ _ Hf)].
  - intros q [<-|[]]. exists (raw_build (link_raw w nd t)). split; [|left; now left]. apply in_or_app. right. apply in_map. unfold target_raws. apply in_or_app. right. apply in_or_app. right. now left.
Qed.

(** ** all targets *)
Inductive centry := EOther (p : cproj) (x : entry) | EBuild (nd : named) (t : btarget) (rs : rulemap).
Definition ce_target (x : centry) : cproj * ctarget :=
  match x with EOther p y => (p, COther (snd (fst y))) | EBuild nd t _ => (nd_proj nd, CBuild t) end.
Definition ce_text (w : wk) (x : centry) : bytes := match x with EOther _ y => entry_text (wk_build_root w) y | EBuild nd t rs => target_text w nd t rs end.
Definition ce_stmts (w : wk) (x : centry) : list stmt := match x with EOther _ y => entry_stmts (wk_build_root w) y | EBuild nd t rs => target_stmts w nd t rs end.
Definition ce_builds (w : wk) (x : centry) : list build := match x with EOther _ y => [entry_build (wk_build_root w) y] | EBuild nd t rs => map raw_build (target_raws w nd t rs) end.
Definition ce_defaults (w : wk) (x : centry) : list bytes := match x with EOther _ y => entry_defaults (wk_build_root w) y | EBuild _ t _ => target_defaults w t end.
Definition ce_outs (w : wk) (x : centry) : list bytes := match x with EOther _ y => produces (fst y) | EBuild _ t _ => target_outs w t end.
Definition ce_default (x : centry) : bool := match x with EOther _ y => is_default (fst y) | EBuild _ t _ => b_default t end.
Definition ce_right (w : wk) (rl : list rrule) (files : list (bytes * data)) (x : centry) : Prop :=
  match x with EOther p y => fst (fst y) = cp_sub p /\ ok_target (fst y) /\ runs_right w files y | EBuild nd t rs => fine_build w rl nd t rs end.
Lemma ce_manifest w rl files x ss tx : ok_workspace w -> ce_right w rl files x -> manifest ss tx -> manifest (ce_stmts w x ++ ss) (ce_text w x ++ tx).
Proof.
  intros Hw Hx Hm. pose proof (ok_root _ Hw) as Hr. destruct x as [p y|nd t rs]; cbn [ce_stmts ce_text].
  - destruct Hx as (_ & Ht & Hy). apply entry_manifest; auto. eapply runs_right_fine; eauto.
  - eapply target_manifest; eauto.
Qed.
Lemma ces_manifest w rl files xs ss tx : ok_workspace w -> Forall (ce_right w rl files) xs -> manifest ss tx ->
  manifest (concat (map (ce_stmts w) xs) ++ ss) (concat (map (ce_text w) xs) ++ tx).
Proof. intros Hw H Hm. induction H as [|x xs Hx Hxs IH]; [exact Hm|]. cbn [map concat]. rewrite <- !app_assoc. eapply ce_manifest; eauto. Qed.

Definition full (command : list part) (R : list (bytes * list (bytes * list part))) (bs : list build) (ds : list bytes) : said := plus (stated command bs ds) R.
Lemma ce_places w rl files x : is_abs (wk_build_root w) = true -> ce_right w rl files x ->
  map (place (wk_build_root w)) (concat (map all_outs (ce_builds w x))) = map (place (wk_build_root w)) (ce_outs w x).
Proof.
  intros Hr Hx. destruct x as [p y|nd t rs]; cbn [ce_builds ce_outs].
  - destruct Hx as (_ & Ht & _). cbn [map concat]. rewrite app_nil_r. now apply entry_places.
  - apply (target_places w nd (cp_comps (nd_proj nd))), target_facts_ok; [exact Hr|apply (fb_ok _ _ _ _ _ Hx)].
Qed.
Definition apart (command : list part) (R : list (bytes * list (bytes * list part))) : Prop := forall n, last_value (the_rules command) n <> None -> last_value R n = None.
Lemma entry_plain root y : Forall plain_stmt (entry_stmts root y).
Proof. destruct y as [[sub [c|n deps]] line]; cbn [entry_stmts]; [constructor; [constructor|]; destruct (c_default c); repeat constructor|repeat constructor]. Qed.
Lemma full_knows command rl bs ds : apart command (map rule_parts rl) -> NoDup (map fst rl) -> Forall fine_rule rl -> knows (full command (map rule_parts rl) bs ds) rl.
Proof.
  intros Ha Hn Hf. constructor; auto; cbn [full plus stated rules vars].
  - rewrite last_value_app, (Ha (B "phony")) by discriminate. reflexivity.
  - intros n vs Hi. rewrite last_value_app. rewrite (last_value_some (map rule_parts rl) n (map (fun x => (fst x, pieces_of (snd x))) vs)); [reflexivity|now rewrite parts_names|].
    apply in_map_iff. exists (n, vs). auto.
Qed.
Lemma ces_steps w rl files command : ok_workspace w -> apart command (map rule_parts rl) -> NoDup (map fst rl) -> Forall fine_rule rl ->
  forall xs bs ds, Forall (ce_right w rl files) xs -> NoDup (map (place (wk_build_root w)) (concat (map all_outs bs) ++ concat (map (ce_outs w) xs))) ->
  steps nodepath (full command (map rule_parts rl) bs ds) (concat (map (ce_stmts w) xs))
    (full command (map rule_parts rl) (bs ++ concat (map (ce_builds w) xs)) (ds ++ concat (map (ce_defaults w) xs))).
Proof.
  intros Hw Ha Hn Hf xs bs ds H. pose proof (ok_root _ Hw) as Hr. revert bs ds. induction H as [|x xs Hx Hxs IH]; intros bs ds N; [cbn; rewrite !app_nil_r; constructor|].
  cbn [map concat] in *. rewrite app_assoc in N. eapply steps_app with (s' := full command (map rule_parts rl) (bs ++ ce_builds w x) (ds ++ ce_defaults w x)).
  - rewrite map_app in N. apply NoDup_parts in N as [N _]. destruct x as [p y|nd t rs]; cbn [ce_stmts ce_builds ce_defaults ce_outs] in *.
    + destruct Hx as (_ & Ht & _). apply steps_plus; [exact Ha|apply entry_plain|]. now apply entry_steps.
    + exact (target_steps (full command (map rule_parts rl) bs ds) w rl nd t rs Hr (full_knows command rl bs ds Ha Hn Hf) Hx N).
  - rewrite !(app_assoc bs), !(app_assoc ds). apply IH. rewrite (map_app all_outs), concat_app. rewrite !map_app in *. now rewrite (ce_places w rl files x Hr Hx).
Qed.

Lemma write_ctargets_ok c nd rl : ok_workspace (cw_base c) -> Forall (fun x => unix_like (k_type (snd x))) (main_comps c) -> rules_of (cw_base c) rl nd ->
  forall ts, incl ts (nd_targets nd) -> Forall (fun t => ok_ctarget c (nd_proj nd, t)) (map fst ts) ->
  (forall t, In (CBuild t) (map fst ts) -> b_type t = StaticLib -> static_comp (cp_comps (nd_proj nd)) [LC; LCpp; LObjc; LNasm] <> None) ->
  forall o, exists xs files, map ce_target xs = map (pair (nd_proj nd)) (map fst ts) /\
  write_ctargets c nd ts o = Some (Out (o_text o ++ concat (map (ce_text (cw_base c)) xs)) (o_files o ++ files)
    (o_seq o + N.of_nat (length files)) (o_default o || existsb ce_default xs)) /\
  numbered (cw_base c) (o_seq o) files /\ Forall (ce_right (cw_base c) rl files) xs.
Proof.
  intros Hw Hm Hru. pose proof (ok_root _ Hw) as Hr. induction ts as [|[t rs] ts IH]; intros Hi Ho Hst o.
  - exists [], []. cbn. rewrite !app_nil_r, N.add_0_r, orb_false_r. repeat split; [now destruct o|constructor].
  - cbn [map fst] in *. inversion Ho as [|? ? Ho1 Ho2]; subst.
    assert (X : exists x files, ce_target x = (nd_proj nd, t) /\ write_target c nd (t, rs) o = Some (Out (o_text o ++ ce_text (cw_base c) x) (o_files o ++ files)
        (o_seq o + N.of_nat (length files)) (o_default o || ce_default x)) /\ numbered (cw_base c) (o_seq o) files /\ ce_right (cw_base c) rl files x).
    { destruct t as [t|t]; cbn [write_target].
      - cbn in Ho1. destruct (write_all_ok (cw_base c) [(cp_sub (nd_proj nd), t)] Hw ltac:(constructor; [exact Ho1|constructor]) o) as (xs & files & Em & Ew & Hn & Hrun).
        destruct xs as [|y [|]]; try discriminate Em. cbn [map] in Em. injection Em as Em. exists (EOther (nd_proj nd) y), files. split; [cbn [ce_target]; now rewrite Em|].
        rewrite write_targets_all. cbn [map]. rewrite Ew. cbn [map concat existsb ce_text ce_default]. rewrite app_nil_r, orb_false_r, Em.
        split; [reflexivity|]. split; [exact Hn|]. cbn [ce_right]. rewrite Em. split; [reflexivity|]. split; [exact Ho1|]. now inversion Hrun.
      - cbn in Ho1. exists (EBuild nd t rs), []. split; [reflexivity|]. assert (Hin : In (CBuild t, rs) (nd_targets nd)) by (apply Hi; now left).
        rewrite (write_build_target_ok c nd t rs o Hr Ho1 Hm (proj1 (rf_compile _ _ _ Hru _ _ Hin))). cbn [length N.of_nat ce_text ce_default]. rewrite app_nil_r, N.add_0_r.
        split; [reflexivity|]. split; [constructor|]. cbn [ce_right]. constructor; auto. intros E. apply (Hst t); [now left|exact E]. }
    destruct X as (x & f1 & Ex & E1 & N1 & R1). cbn [write_ctargets]. rewrite E1. set (o1 := Out _ _ _ _).
    destruct (IH (fun y Hy => Hi y (or_intror Hy)) Ho2 (fun t' Ht' => Hst t' (or_intror Ht')) o1) as (xs & f2 & Em & E2 & N2 & R2). exists (x :: xs), (f1 ++ f2).
    split; [cbn [map]; now rewrite Em, Ex|]. split; [|split].
    + rewrite E2. unfold o1. cbn [o_text o_files o_seq o_default map concat existsb]. rewrite <- !app_assoc, app_length, orb_assoc. f_equal. f_equal. lia.
    + apply numbered_app; auto.
    + assert (More : forall f f' y, (forall z, In z f -> In z f') -> ce_right (cw_base c) rl f y -> ce_right (cw_base c) rl f' y).
      { intros f f' [p y|nd' t' rs'] Hff; [|auto]. intros (A & A' & A''). split; [auto|]. split; [auto|]. eapply runs_right_more; eauto. }
      constructor; [eapply More; [|exact R1]; intros z Hz; apply in_or_app; auto|]. eapply Forall_impl; [|exact R2]. intros a. apply More. intros z Hz. apply in_or_app. auto.
Qed.

(** ** the whole file *)
Definition nd_ctargets (nd : named) : list (cproj * ctarget) := map (pair (nd_proj nd)) (map fst (nd_targets nd)).
Lemma write_nameds_ok c rl : ok_workspace (cw_base c) -> Forall (fun x => unix_like (k_type (snd x))) (main_comps c) ->
  forall nds, Forall (rules_of (cw_base c) rl) nds -> Forall (ok_ctarget c) (concat (map nd_ctargets nds)) ->
  (forall p t, In (p, CBuild t) (concat (map nd_ctargets nds)) -> b_type t = StaticLib -> static_comp (cp_comps p) [LC; LCpp; LObjc; LNasm] <> None) ->
  forall o, exists xs files, map ce_target xs = concat (map nd_ctargets nds) /\
  write_nameds c nds o = Some (Out (o_text o ++ concat (map (ce_text (cw_base c)) xs)) (o_files o ++ files)
    (o_seq o + N.of_nat (length files)) (o_default o || existsb ce_default xs)) /\
  numbered (cw_base c) (o_seq o) files /\ Forall (ce_right (cw_base c) rl files) xs.
Proof.
  intros Hw Hm. induction nds as [|nd nds IH]; intros Hr Ho Hst o.
  - exists [], []. cbn. rewrite !app_nil_r, N.add_0_r, orb_false_r. repeat split; [now destruct o|constructor].
  - cbn [map concat] in *. apply Forall_app in Ho as [Ho1 Ho2]. inversion Hr as [|? ? Hr1 Hr2]; subst.
    destruct (write_ctargets_ok c nd rl Hw Hm Hr1 (nd_targets nd) (incl_refl _)) with (o := o) as (x1 & f1 & M1 & E1 & N1 & R1).
    { unfold nd_ctargets in Ho1. rewrite Forall_map in Ho1. exact Ho1. }
    { intros t Ht. apply (Hst (nd_proj nd) t). apply in_or_app. left. unfold nd_ctargets. now apply in_map. }
    cbn [write_nameds]. rewrite E1. set (o1 := Out _ _ _ _).
    destruct (IH Hr2 Ho2 (fun p t Hi => Hst p t (in_or_app _ _ _ (or_intror Hi))) o1) as (x2 & f2 & M2 & E2 & N2 & R2). exists (x1 ++ x2), (f1 ++ f2).
    split; [rewrite map_app; unfold nd_ctargets in *; now rewrite M1, M2|]. split; [|split].
    + rewrite E2. unfold o1. cbn [o_text o_files o_seq o_default]. rewrite map_app, concat_app, existsb_app, <- !app_assoc, app_length, orb_assoc. f_equal. f_equal. lia.
    + apply numbered_app; auto.
    + assert (More : forall f f' y, (forall z, In z f -> In z f') -> ce_right (cw_base c) rl f y -> ce_right (cw_base c) rl f' y).
      { intros f f' [p y|nd' t' rs'] Hff; [|auto]. intros (A & A' & A''). split; [auto|]. split; [auto|]. eapply runs_right_more; eauto. }
      apply Forall_app. split; (eapply Forall_impl; [|eassumption]); intros a; apply More; intros z Hz; apply in_or_app; auto.
Qed.

Lemma cstale_iff c : needs_phony (cw_projects c) = true <-> cstale c.
Proof.
  unfold needs_phony, cstale, ctargets. rewrite existsb_exists. split.
  - intros (p & Hp & E). apply andb_true_iff in E as [E1 E2]. apply existsb_exists in E2 as (t & Ht & E2). destruct t as [[k|]|]; try discriminate. exists p, k. split; [|exact E2].
    apply in_concat. eexists. split; [apply in_map; apply filter_In; split; [exact Hp|exact E1]|]. now apply in_map.
  - intros (p & k & Hi & E). apply in_concat in Hi as (l & Hl & Hi). apply in_map_iff in Hl as (q & <- & Hq). apply filter_In in Hq as [Hq1 Hq2]. apply in_map_iff in Hi as (t & [= -> ->] & Ht).
    exists p. split; [exact Hq1|]. rewrite Hq2. apply existsb_exists. eauto.
Qed.
Lemma static_some cs ls : (exists l, In l ls /\ In l (map fst cs)) -> NoDup (map fst cs) -> static_comp cs ls <> None.
Proof.
  intros (l & Hl & Hi) N. induction ls as [|x ls IH]; [destruct Hl|]. cbn [static_comp]. destruct (geti cs x) eqn:E; [discriminate|]. destruct Hl as [->|Hl]; [|now apply IH].
  apply in_map_iff in Hi as ([l' k] & <- & Hi). cbn [fst] in E. rewrite (geti_spec cs l' k N Hi) in E. discriminate.
Qed.
Lemma ninja_apart command rl : (forall r, In r (map fst rl) -> In "m"%char r \/ In "r"%char r) -> apart command (map rule_parts rl).
Proof.
  intros H n Hn. apply last_value_none. rewrite parts_names. intros Hi. apply H in Hi. apply Hn. apply last_value_none. intros X. cbn in X.
  destruct X as [<-|[<-|[<-|[<-|[]]]]]; vm_compute in Hi; intuition discriminate.
Qed.

Record ninja_facts (c : cwk) (text : bytes) (files : list (bytes * data)) (rl : list rrule) (xs : list centry) : Prop := {
  nf_written : write_ninja c = Some (text, files);
  nf_nonempty : text <> [];
  nf_entries : map ce_target xs = ctargets c;
  nf_numbered : numbered (cw_base c) 0 files;
  nf_right : Forall (ce_right (cw_base c) rl files) xs;
  nf_names : NoDup (map fst rl);
  nf_apart : apart (command_parts (cw_base c)) (map rule_parts rl);
  nf_fine : Forall fine_rule rl;
  nf_says : exists ss, manifest ss text /\ steps nodepath at_first ss
    (full (command_parts (cw_base c)) (map rule_parts rl)
      (regen_build (cw_base c) :: stale_builds (needs_phony (cw_projects c)) ++ concat (map (ce_builds (cw_base c)) xs) ++ last_builds (existsb ce_default xs))
      (concat (map (ce_defaults (cw_base c)) xs) ++ last_defaults (existsb ce_default xs))) }.
Lemma outs_once c xs : forall A, NoDup (A ++ map (place (wk_build_root (cw_base c))) (concat (map (cproduces c) (map ce_target xs)))) ->
  (forall p y, In (EOther p y) xs -> fst (fst y) = cp_sub p) ->
  NoDup (A ++ map (place (wk_build_root (cw_base c))) (concat (map (ce_outs (cw_base c)) xs))) /\
  incl (map (place (wk_build_root (cw_base c))) (concat (map (ce_outs (cw_base c)) xs))) (map (place (wk_build_root (cw_base c))) (concat (map (cproduces c) (map ce_target xs)))).
Proof.
  induction xs as [|x xs IH]; intros A N H; [split; [exact N|apply incl_refl]|]. cbn [map concat] in *. rewrite !map_app in *.
  assert (Y : NoDup (A ++ map (place (wk_build_root (cw_base c))) (ce_outs (cw_base c) x) ++ map (place (wk_build_root (cw_base c))) (concat (map (cproduces c) (map ce_target xs)))) /\
    incl (map (place (wk_build_root (cw_base c))) (ce_outs (cw_base c) x)) (map (place (wk_build_root (cw_base c))) (cproduces c (ce_target x)))).
  { destruct x as [p y|nd t rs]; cbn [ce_target cproduces ce_outs snd fst] in *.
    - rewrite <- (H p y (or_introl eq_refl)) in *. destruct (fst y) as [sub t]. split; [exact N|apply incl_refl].
    - unfold target_outs. destruct (many_order t); [split; [exact N|apply incl_refl]|]. cbn [map app] in *. split; [now apply NoDup_remove_1 in N|apply incl_tl, incl_refl]. }
  destruct Y as [Y1 Y2]. rewrite app_assoc in Y1. destruct (IH _ Y1 (fun p y Hi => H p y (or_intror Hi))) as [Z1 Z2]. rewrite <- app_assoc in Z1. split; [exact Z1|].
  apply incl_app; [apply incl_appl; exact Y2|apply incl_appr; exact Z2].
Qed.

Lemma ninja_file c : ok_cworkspace c -> exists text files rl xs, ninja_facts c text files rl xs.
Proof.
  intros [Hw Ha Hc Hst Ht Hu]. set (w := cw_base c) in *. pose proof (ok_root _ Hw) as Hr.
  destruct (head_text w (needs_phony (cw_projects c)) Hw) as (pre & Ep & Hp).
  destruct (projects_rules_ok w Ha (cw_projects c) [] []) as (rtext & nds & rl & Er & Wr & Rf & En & Fi & Nr & Kr); [|constructor|constructor|].
  { intros p Hp1 Hp2. destruct (Hc p Hp1) as [X1 X2]. constructor; auto. intros t Hi. rewrite Forall_forall in Ht. apply (Ht (p, CBuild t)). unfold ctargets. apply in_concat.
    eexists. split; [apply in_map; apply filter_In; split; [exact Hp1|exact Hp2]|]. now apply in_map. }
  assert (Ect : concat (map nd_ctargets nds) = ctargets c).
  { unfold ctargets. rewrite <- En, map_map. f_equal. apply map_ext_in. intros nd Hnd. unfold nd_ctargets. rewrite Forall_forall in Rf. now rewrite (rf_targets _ _ _ (Rf nd Hnd)). }
  destruct (write_nameds_ok c rl Hw) with (nds := nds) (o := Out (pre ++ rtext ++ targets_comment) [] 0%N false) as (xs & files & Em & Ew & Hn & Hx); [| | | |].
  { unfold main_comps. destruct (cw_projects c) as [|p ps]; [constructor|]. destruct (Hc p (or_introl eq_refl)) as [_ X]. eapply Forall_impl; [|exact X]. intros y Hy. apply (ok_ctype _ Hy). }
  { exact Rf. }
  { rewrite Ect. exact Ht. }
  { rewrite Ect. intros p t Hi E. assert (Hp1 : In p (cw_projects c)).
    { unfold ctargets in Hi. apply in_concat in Hi as (l & Hl & Hi). apply in_map_iff in Hl as (q & <- & Hq). apply filter_In in Hq as [Hq1 _]. apply in_map_iff in Hi as (t' & [= -> _] & _). exact Hq1. }
    apply static_some; [exact (Hst p t Hi E)|apply (Hc p Hp1)]. }
  cbn [o_text o_files o_seq o_default app orb] in *. rewrite Ect in Em.
  set (dflt := existsb ce_default xs) in *.
  set (tail := if dflt then [] else B "build muon_do_nothing: phony" ++ [NL] ++ B "default muon_do_nothing" ++ [NL]).
  exists (((pre ++ rtext ++ targets_comment) ++ concat (map (ce_text w) xs)) ++ tail), files, rl, xs.
  assert (Hap : apart (command_parts w) (map rule_parts rl)).
  { apply ninja_apart. intros r Hri. destruct (Kr r Hri) as [[X _]|(p0 & k & _ & -> & _)]; [left; apply (compile_name_ok r X)|right]. do 3 (apply in_or_app; right). vm_compute. auto 10. }
  pose proof (last_text dflt) as H1. fold tail in H1.
  pose proof (ces_manifest w rl files xs _ _ Hw Hx H1) as H2. pose proof (Hp _ _ (Wr _ _ (targets_comment_text _ _ H2))) as H3.
  assert (P0 : pre <> []).
  { intros E. unfold write_head in Ep. destruct (regenerate_build_command w); [|discriminate]. destruct (join_args_shell l); [|discriminate].
    destruct (all (relativize w) _); [|discriminate]. destruct (join_args_ninja l1); [|discriminate]. injection Ep as Ep. rewrite E in Ep. discriminate Ep. }
  constructor; auto.
  - unfold write_ninja. fold w. rewrite Ep, Er, Ew. reflexivity.
  - intros E. apply app_eq_nil in E as [E _]. apply app_eq_nil in E as [E _]. apply app_eq_nil in E as [E _]. contradiction.
  - eexists. split; [rewrite <- !app_assoc; exact H3|]. fold w. eapply steps_app; [apply first_steps; exact Hw|].
    rewrite <- Em in Hu. unfold reserved in Hu. rewrite map_app in Hu. cbn [map app] in Hu.
    assert (Sub : forall p y, In (EOther p y) xs -> fst (fst y) = cp_sub p). { intros p y Hi. rewrite Forall_forall in Hx. apply (Hx _ Hi). }
    destruct (outs_once c xs (map (place (wk_build_root w)) reserved) Hu Sub) as [Hu' _]. fold w in Hu'. clear Hu. rename Hu' into Hu.
    set (L := concat (map (ce_outs w) xs)) in *. unfold reserved in Hu. cbn [app map] in Hu.
    inversion Hu as [|? ? U1 Hu1]; subst. inversion Hu1 as [|? ? U2 Hu2]; subst. inversion Hu2 as [|? ? U3 Hu3]; subst.
    set (root := wk_build_root w) in *.
    set (bs := regen_build w :: stale_builds (needs_phony (cw_projects c))).
    assert (E0 : concat (map all_outs bs) = B "build.ninja" :: (if needs_phony (cw_projects c) then [B "build_always_stale"] else [])).
    { unfold bs, stale_builds. destruct (needs_phony _); reflexivity. }
    assert (Hsteps : steps nodepath (stated (command_parts w) [regen_build w] []) (stale_stmts (needs_phony (cw_projects c))) (stated (command_parts w) bs [])).
    { unfold bs, stale_stmts, stale_builds. destruct (needs_phony _); [|constructor]. eapply ss_more; [|apply ss_nil].
      apply (phony_step _ _ [regen_build w]); [apply label_nameable, stale_label|reflexivity|]. intros b [<-|[]] [X|[]]. discriminate X. }
    eapply steps_app; [exact Hsteps|]. eapply steps_app.
    { apply rules_steps; [exact Nr| |exact Fi]. intros n Hin. cbn [stated rules]. destruct (last_value (the_rules (command_parts w)) n) eqn:E; [|reflexivity]. exfalso.
      assert (X : last_value (map rule_parts rl) n = None) by (apply Hap; rewrite E; discriminate). rewrite <- parts_names in Hin. apply in_map_iff in Hin as ([n' v] & <- & Hin). cbn [fst] in X.
      rewrite (last_value_some _ n' v) in X; [discriminate|now rewrite parts_names|exact Hin]. }
    change (plus (stated (command_parts w) bs []) (map rule_parts rl)) with (full (command_parts w) (map rule_parts rl) bs []).
    eapply steps_app.
    + apply (ces_steps w rl files); auto. rewrite E0. fold L root. destruct (needs_phony _); cbn [app map].
      * constructor; [|constructor; [|auto]].
        -- intros X. apply U1. destruct X as [X|X]; [now left|right; right; auto].
        -- intros X. apply U2. now right.
      * constructor; [|auto]. intros X. apply U1. right. now right.
    + cbn [app]. fold dflt. replace (regen_build w :: stale_builds (needs_phony (cw_projects c)) ++ concat (map (ce_builds w) xs) ++ last_builds dflt)
        with ((bs ++ concat (map (ce_builds w) xs)) ++ last_builds dflt) by (unfold bs; cbn [app]; now rewrite <- app_assoc).
      apply steps_plus; [exact Hap| |].
      { unfold last_stmts. destruct dflt; repeat constructor. }
      apply last_steps. intros x Hin Hi.
      assert (Hpl : In (place root (B "muon_do_nothing")) (map (place root) (all_outs x))) by now apply in_map.
      apply in_app_or in Hin as [Hin|Hin].
      * assert (Y : In (B "muon_do_nothing") (concat (map all_outs bs))) by (apply in_concat; exists (all_outs x); split; [now apply in_map|auto]).
        rewrite E0 in Y. destruct Y as [Y|Y]; [discriminate Y|]. destruct (needs_phony _); [|destruct Y]. destruct Y as [Y|[]]. discriminate Y.
      * apply in_concat in Hin as (l & Hl & Hin). apply in_map_iff in Hl as (y & <- & Hy). apply U3. unfold L.
        rewrite Forall_forall in Hx. pose proof (ce_places w rl files y Hr (Hx y Hy)) as Hpy. fold root in Hpy.
        assert (Z : In (place root (B "muon_do_nothing")) (map (place root) (ce_outs w y))). { rewrite <- Hpy. apply in_map. apply in_concat. exists (all_outs x). split; [now apply in_map|exact Hi]. }
        rewrite concat_map, map_map. apply in_concat. eexists. split; [|exact Z]. apply in_map_iff. eauto.
Qed.
