(** Lemmas about the rules for compiling and linking: their names and their texts. *)
From Coq Require Import Lia Permutation.
From Verif Require Import Base S_Path S_Escape M_Escape L_Escape M_Format S_Format L_Format M_Toolchain M_Backend S_Backend S_Tree S_Env S_Manifest L_Spelling L_Backend L_Words M_Compile S_Compile L_Compile.
Local Arguments B _ : simpl never.

(** ** Texts of rules *)
Definition gcc_like (t : ctype) : bool := match t with gcc | clang | apple_clang => true | _ => false end.
Definition assembler (t : ctype) : bool := match t with nasm | yasm => true | _ => false end.
Definition OUT : list atom := [Var (B "out")].
Definition IN : list atom := [Var (B "in")].
Definition DOTD : list atom := Var (B "out") :: Chars (B ".d").
Definition option_atoms (t : ctype) : list (list atom) :=
  (if gcc_like t then [Chars (B "-MD"); Chars (B "-MQ"); OUT; Chars (B "-MF"); DOTD] else [])
  ++ [Chars (B "-o"); OUT] ++ (if assembler t then [] else [Chars (B "-c")]).
Notation rrule := (bytes * list (bytes * list atom))%type.
Definition rule_stmt (r : rrule) : stmt := SRule (fst r) (snd r).
Definition rule_parts (r : rrule) : bytes * list (bytes * list part) := (fst r, map (fun x => (fst x, pieces_of (snd x))) (snd r)).
Definition compiler_vars (a : list atom) (l : lang) (k : comp) : list (bytes * list atom) :=
  (B "command", joina (map Chars (k_cmd k) ++ [a] ++ option_atoms (k_type k) ++ [IN]))
  :: (if gcc_like (k_type k) then [(B "deps", Chars (B "gcc")); (B "depfile", DOTD)] else [])
  ++ [(B "description", Chars (B "compiling " ++ lang_name l ++ B " ") ++ OUT)].
Definition linker_vars (k : comp) : list (bytes * list atom) :=
  [(B "command", joina (map Chars (k_cmd k) ++ [[Var (B "ARGS")]; Chars (B "-o"); OUT; IN; [Var (B "LINK_ARGS")]]));
   (B "description", Chars (B "linking ") ++ OUT)].
Definition archive_flags (t : stype) : bytes := match t with ar_gcc => B "csrD" | _ => B "csr" end.
Definition static_vars (w : wk) (k : comp) : list (bytes * list atom) :=
  [(B "command", joina ([Chars (wk_argv0 w); Chars (B "internal"); Chars (B "exe"); Chars (B "-R"); OUT; Chars (B "--")] ++ map Chars (k_static_cmd k)
      ++ [Chars (archive_flags (k_static k)); OUT; IN]));
   (B "description", Chars (B "linking static ") ++ OUT)].

Definition writes_rules (rs : list rrule) (text : bytes) : Prop :=
  forall ss t, manifest ss t -> manifest (map rule_stmt rs ++ ss) (text ++ t).
Lemma writes_nil : writes_rules [] []. Proof. intros ss t H. exact H. Qed.
Lemma writes_app rs rs' x y : writes_rules rs x -> writes_rules rs' y -> writes_rules (rs ++ rs') (x ++ y).
Proof. intros H1 H2 ss t H. rewrite map_app, <- !app_assoc. apply H1. now apply H2. Qed.
Lemma writes_one n vs w : a_name n -> block vs w -> writes_rules [(n, vs)] (B "rule " ++ n ++ [NL] ++ w ++ [NL]).
Proof.
  intros Hn Hb ss t H. pose proof (mf_statement _ _ _ _ (rule_text n vs w Hn Hb) (mf_empty_line _ _ H)) as X.
  rewrite <- !app_assoc in *. exact X.
Qed.

Lemma spells_out : spells OUT (B "$out"). Proof. apply (spells_var (B "out")); [discriminate|reflexivity]. Qed.
Lemma spells_in : spells IN (B "$in"). Proof. apply (spells_var (B "in")); [discriminate|reflexivity]. Qed.
Lemma spells_args : spells [Var (B "ARGS")] (B "$ARGS"). Proof. apply (spells_var (B "ARGS")); [discriminate|reflexivity]. Qed.
Lemma spells_link : spells [Var (B "LINK_ARGS")] (B "$LINK_ARGS"). Proof. apply (spells_var (B "LINK_ARGS")); [discriminate|reflexivity]. Qed.
Lemma bare_chars s : bare_word s -> forallb (plain false) s = true.
Proof.
  intros [Hl Hp]. apply forallb_forall. intros c Hc. destruct (Hl c Hc) as (A1 & A2 & A3 & A4). unfold sh_plain in Hp.
  apply andb_true_iff in Hp as [_ Hp]. rewrite forallb_forall in Hp. specialize (Hp c Hc). apply negb_true_iff in Hp. apply not_special_dollar in Hp as [Hd _].
  now apply plain_char.
Qed.
Lemma spells_bare s : bare_word s -> spells (Chars s) s. Proof. intros H. now apply spells_chars, bare_chars. Qed.
Lemma spells_bares l : Forall bare_word l -> Forall2 spells (map Chars l) l.
Proof. induction 1; constructor; [now apply spells_bare|auto]. Qed.
Ltac each2 := repeat (apply Forall2_cons || apply Forall2_nil).
Ltac lit := apply spells_chars; reflexivity.
Lemma bare_head s t : bare_word s -> ~ begins_blank (s ++ t).
Proof.
  intros [_ Hp] X. destruct s as [|c s]; [discriminate Hp|]. unfold sh_plain in Hp. apply andb_true_iff in Hp as [_ Hp].
  cbn [forallb] in Hp. apply andb_true_iff in Hp as [Hp _]. apply negb_true_iff in Hp. apply not_special_dollar in Hp as [H1 H2].
  apply begins_blank_inv in X as (r & [X|[X|X]]); cbn in X; injection X as X; congruence.
Qed.
Lemma joinb_head s l : exists t, joinb (B " ") (s :: l) = s ++ t.
Proof. destruct l; [exists []; cbn; now rewrite app_nil_r|]. rewrite joinb_cons by discriminate. eauto. Qed.
Lemma lit_head c s : c <> " "%char -> c <> "$"%char -> ~ begins_blank (c :: s).
Proof. intros H1 H2 X. apply begins_blank_inv in X as (r & [X|[X|X]]); injection X as X; congruence. Qed.

Lemma deps_answer t : unix_like t -> (match deps_kind t with Some _ => answer (CompilerDeps t (B "$out") (B "${out}.d")) | None => Some [] end)
  = Some (if gcc_like t then [B "-MD"; B "-MQ"; B "$out"; B "-MF"; B "${out}.d"] else [])
  /\ deps_kind t = (if gcc_like t then Some (B "gcc") else None).
Proof. intros H. unfold unix_like in H. cbn [In] in H. repeat (destruct H as [<-|H]; [split; vm_compute; reflexivity|]). contradiction. Qed.
Lemma out_answer t : unix_like t -> answer (Compiler1s t output (B "$out")) = Some [B "-o"; B "$out"].
Proof. intros H. unfold unix_like in H. cbn [In] in H. repeat (destruct H as [<-|H]; [vm_compute; reflexivity|]). contradiction. Qed.
Lemma only_answer t : unix_like t -> answer (Compiler0 t compile_only) = Some (if assembler t then [] else [B "-c"]).
Proof. intros H. unfold unix_like in H. cbn [In] in H. repeat (destruct H as [<-|H]; [vm_compute; reflexivity|]). contradiction. Qed.
Lemma static_answer t : t <> s_msvc -> answer (StaticBase t) = Some [archive_flags t] /\ answer (StaticInputOutput t (B "$in") (B "$out")) = Some [B "$out"; B "$in"].
Proof. intros H. destruct t; [| |congruence]; split; vm_compute; reflexivity. Qed.
Lemma option_spelled t : Forall2 spells (option_atoms t)
  ((if gcc_like t then [B "-MD"; B "-MQ"; B "$out"; B "-MF"; B "${out}.d"] else []) ++ [B "-o"; B "$out"] ++ (if assembler t then [] else [B "-c"])).
Proof.
  unfold option_atoms. apply Forall2_app; [|apply Forall2_app].
  - destruct (gcc_like t); [|constructor]. each2; try lit; try apply spells_out. apply spells_dotd.
  - each2; [lit|apply spells_out].
  - destruct (assembler t); [constructor|]. each2. lit.
Qed.
Lemma block_one n a w xs t : a_name n -> spells a w -> ~ begins_blank w -> block xs t -> block ((n, a) :: xs) (B " " ++ n ++ B " = " ++ w ++ [NL] ++ t).
Proof. intros Hn Hs. apply block_text; [exact Hn|now apply spells_written]. Qed.
Lemma lang_plain l : forallb (plain false) (lang_name l) = true. Proof. destruct l; reflexivity. Qed.
Lemma compiler_rule_ok a at' name l k : ok_comp k -> spells a at' -> a_name name ->
  exists text, compiler_rule at' name l k = Some text /\ writes_rules [(name, compiler_vars a l k)] text.
Proof.
  intros [(Nc & Fc) Hu _] Ha Hn. destruct (deps_answer _ Hu) as [E1 E2]. unfold compiler_rule. rewrite E1, (out_answer _ Hu), (only_answer _ Hu), join_plain, E2.
  eexists. split; [reflexivity|]. set (cmd := joinb _ _).
  assert (Sc : spells (joina (map Chars (k_cmd k) ++ [a] ++ option_atoms (k_type k) ++ [IN])) cmd).
  { unfold cmd. apply spells_join. apply Forall2_app; [now apply spells_bares|]. apply Forall2_app; [each2; exact Ha|].
    rewrite !app_assoc. rewrite <- (app_assoc (if gcc_like (k_type k) then _ else _)). apply Forall2_app; [apply option_spelled|each2; apply spells_in]. }
  assert (Bc : ~ begins_blank cmd).
  { unfold cmd. destruct (k_cmd k) as [|s r]; [congruence|]. cbn [app]. match goal with |- context [joinb _ (s :: ?r)] => destruct (joinb_head s r) as [t ->] end.
    apply bare_head. now inversion Fc. }
  assert (Bd : block [(B "description", Chars (B "compiling " ++ lang_name l ++ B " ") ++ OUT)] (B " " ++ B "description" ++ B " = " ++ ((B "compiling " ++ lang_name l ++ B " ") ++ B "$out") ++ [NL] ++ [])).
  { apply block_one; [known_name| |apply lit_head; discriminate|constructor]. apply spells_app_chars; [|apply spells_out].
    rewrite !forallb_app, lang_plain. reflexivity. }
  remember (B " " ++ B "description" ++ B " = " ++ ((B "compiling " ++ lang_name l ++ B " ") ++ B "$out") ++ [NL] ++ []) as D eqn:ED.
  pose proof (writes_one name (compiler_vars a l k)
    (B " " ++ B "command" ++ B " = " ++ cmd ++ [NL] ++
      (if gcc_like (k_type k) then B " " ++ B "deps" ++ B " = " ++ B "gcc" ++ [NL] ++ B " " ++ B "depfile" ++ B " = " ++ B "${out}.d" ++ [NL] else []) ++ D) Hn) as X.
  refine (eq_ind _ (writes_rules _) (X _) _ _).
  - unfold compiler_vars. apply block_one; [known_name|exact Sc|exact Bc|]. destruct (gcc_like (k_type k)); [|exact Bd]. rewrite <- !app_assoc. cbn [app].
    apply (block_one (B "deps") (Chars (B "gcc")) (B "gcc")); [known_name|lit|apply lit_head; discriminate|].
    apply (block_one (B "depfile") DOTD (B "${out}.d")); [known_name|apply spells_dotd| |exact Bd].
    intros Y. apply begins_blank_inv in Y as (r & [Y|[Y|Y]]); vm_compute in Y; discriminate Y.
  - subst D. destruct (gcc_like (k_type k)); rewrite <- !app_assoc, ?app_nil_r; reflexivity.
Qed.
Lemma linker_rule_ok prefix l k : ok_comp k -> a_name (prefix ++ B "_" ++ lang_name l ++ B "_linker") ->
  exists text, linker_rule prefix l k = Some text /\ writes_rules [(prefix ++ B "_" ++ lang_name l ++ B "_linker", linker_vars k)] text.
Proof.
  intros [(Nc & Fc) Hu _] Hn. unfold linker_rule.
  set (cmd := joinb (B " ") (k_cmd k ++ [B "$ARGS"; B "-o"; B "$out"; B "$in"; B "$LINK_ARGS"])).
  assert (E : forall X, match k_type k with msvc => X | _ => (do out <- answer (Compiler1s (k_type k) output (B "$out")); Some (k_cmd k ++ [B "$ARGS"] ++ out ++ [B "$in"; B "$LINK_ARGS"])) end
    = Some (k_cmd k ++ [B "$ARGS"; B "-o"; B "$out"; B "$in"; B "$LINK_ARGS"])).
  { intros X. rewrite (out_answer _ Hu). unfold unix_like in Hu. cbn [In] in Hu. repeat (destruct Hu as [<-|Hu]; [reflexivity|]). contradiction. }
  rewrite E, join_plain. fold cmd. eexists. split; [reflexivity|].
  assert (Bd : block [(B "description", Chars (B "linking ") ++ OUT)] (B " " ++ B "description" ++ B " = " ++ (B "linking " ++ B "$out") ++ [NL] ++ [])).
  { apply block_one; [known_name| |apply lit_head; discriminate|constructor]. apply spells_app_chars; [reflexivity|apply spells_out]. }
  pose proof (writes_one _ (linker_vars k) (B " " ++ B "command" ++ B " = " ++ cmd ++ [NL] ++ B " " ++ B "description" ++ B " = " ++ (B "linking " ++ B "$out") ++ [NL] ++ []) Hn) as X.
  refine (eq_ind _ (writes_rules _) (X _) _ _).
  - unfold linker_vars. apply block_one; [known_name| | |exact Bd].
    + unfold cmd. apply spells_join. apply Forall2_app; [now apply spells_bares|]. each2; try lit; [apply spells_args|apply spells_out|apply spells_in|apply spells_link].
    + unfold cmd. destruct (k_cmd k) as [|s r]; [congruence|]. cbn [app]. match goal with |- context [joinb _ (s :: ?r)] => destruct (joinb_head s r) as [t ->] end.
      apply bare_head. now inversion Fc.
  - rewrite <- !app_assoc. reflexivity.
Qed.
Definition static_list (w : wk) (prefix : bytes) (comps' : list (lang * comp)) : list rrule :=
  match static_comp comps' [LC; LCpp; LObjc; LNasm] with Some k => [(prefix ++ B "_static_linker", static_vars w k)] | None => [] end.
Lemma static_comp_in cs ls k : static_comp cs ls = Some k -> exists before l after, ls = before ++ l :: after /\ In (l, k) cs /\ forall g, In g before -> ~ In g (map fst cs).
Proof.
  induction ls as [|l ls IH]; cbn [static_comp]; [discriminate|]. destruct (geti cs l) as [k'|] eqn:E.
  - intros [= ->]. exists [], l, ls. split; [reflexivity|]. split; [now apply geti_in|]. intros g [].
  - intros H. destruct (IH H) as (before & l' & after & -> & Hi & Hb). exists (l :: before), l', after. split; [reflexivity|]. split; [exact Hi|].
    intros g [<-|Hg]; [now apply geti_none|auto].
Qed.
Lemma static_rule_ok w prefix cs : bare_word (wk_argv0 w) -> Forall (fun x => ok_comp (snd x)) cs -> a_name (prefix ++ B "_static_linker") ->
  exists text, static_rule w prefix cs = Some text /\ writes_rules (static_list w prefix cs) text.
Proof.
  intros Ha Hc Hn. unfold static_rule, static_list. destruct (static_comp cs _) as [k|] eqn:E; [|exists []; split; [reflexivity|apply writes_nil]].
  apply static_comp_in in E as (? & l & ? & _ & Hi & _). rewrite Forall_forall in Hc. destruct (Hc _ Hi) as [_ _ (Ns & Fs)]. cbn [snd] in *. clear Hi Hc.
  destruct (static_answer _ Ns) as [-> ->].
  set (cmd := joinb (B " ") ([wk_argv0 w; B "internal"; B "exe"; B "-R"; B "$out"; B "--"] ++ k_static_cmd k ++ [archive_flags (k_static k); B "$out"; B "$in"])).
  assert (E : (match k_static k with s_msvc => [] | _ => [wk_argv0 w; B "internal"; B "exe"; B "-R"; B "$out"; B "--"] end) = [wk_argv0 w; B "internal"; B "exe"; B "-R"; B "$out"; B "--"])
    by (destruct (k_static k); congruence).
  rewrite E, join_plain. eexists. split; [reflexivity|].
  assert (Bd : block [(B "description", Chars (B "linking static ") ++ OUT)] (B " " ++ B "description" ++ B " = " ++ (B "linking static " ++ B "$out") ++ [NL] ++ [])).
  { apply block_one; [known_name| |apply lit_head; discriminate|constructor]. apply spells_app_chars; [reflexivity|apply spells_out]. }
  pose proof (writes_one _ (static_vars w k) (B " " ++ B "command" ++ B " = " ++ cmd ++ [NL] ++ B " " ++ B "description" ++ B " = " ++ (B "linking static " ++ B "$out") ++ [NL] ++ []) Hn) as X.
  refine (eq_ind _ (writes_rules _) (X _) _ _).
  - unfold static_vars. apply block_one; [known_name| | |exact Bd].
    + unfold cmd. apply spells_join. apply Forall2_app; [|apply Forall2_app; [now apply spells_bares|]].
      * each2; try lit; [now apply spells_bare|apply spells_out].
      * each2; [|apply spells_out|apply spells_in]. destruct (k_static k); lit.
    + unfold cmd. cbn [app]. match goal with |- context [joinb _ (wk_argv0 w :: ?r)] => destruct (joinb_head (wk_argv0 w) r) as [t ->] end. now apply bare_head.
  - rewrite <- !app_assoc. reflexivity.
Qed.
