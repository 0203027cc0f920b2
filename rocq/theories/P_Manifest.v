(** C105-C107: reading a build manifest (src/external/samurai/parse.c and scan.c). *)
From Verif Require Import Base M_Tree S_Tree L_Tree M_Escape L_Escape M_Env S_Env L_Env P_Env S_Path M_Canon M_Format S_Format M_Manifest S_Manifest L_Manifest L_Meaning L_Statements L_ManifestEnds.
Local Arguments B _ : simpl never.

(** ** C105: a manifest is read as written *)
(** an edge of the reader [e] is the build statement [b] *)
Definition is_build (s : said) (st : mstate) (b : build) (e : medge) : Prop :=
  me_out e = b_outs b ++ b_outimp b /\ me_outimp e = length (b_outs b) /\
  me_in e = b_ins b ++ b_imp b ++ b_ord b /\ me_inimp e = length (b_ins b) /\ me_inorder e = length (b_ins b) + length (b_imp b) /\
  me_rule e = b_rule b /\ me_pool e = b_pool b /\
  forall escape var v, edgevar (var_edge st e) escape var = Val v <-> value (if escape then nodepath else fun p => p) (sees s b) var v.
Definition shows (s : said) (st : mstate) : Prop :=
  Forall2 (is_build s st) (builds s) (ms_edges st) /\
  (forall n, treefind (ms_vars st) n = last_value (vars s) n) /\
  (forall n, treefind (ms_pools st) n = last_value (pools s) n) /\
  (defaults s <> [] -> default_nodes st = defaults s) /\
  (defaults s = [] -> forall p, In p (default_nodes st) <->
     (exists b, In b (builds s) /\ In p (all_outs b)) /\ forall b, In b (builds s) -> ~ In p (all_ins b)).

Lemma Forall2_impl {X Y} (P Q : X -> Y -> Prop) a b : (forall x y, P x y -> Q x y) -> Forall2 P a b -> Forall2 Q a b.
Proof. intros H. induction 1; constructor; auto. Qed.
Lemma Forall2_in_r {X Y} (P : X -> Y -> Prop) a b y : Forall2 P a b -> In y b -> exists x, In x a /\ P x y.
Proof. induction 1; intros H1; [destruct H1|]. destruct H1 as [<-|H1]; [eexists; split; [now left|auto]|]. destruct (IHForall2 H1) as (z & Hz & Pz). exists z. split; [now right|auto]. Qed.
Lemma Forall2_in_l {X Y} (P : X -> Y -> Prop) a b x : Forall2 P a b -> In x a -> exists y, In y b /\ P x y.
Proof. induction 1; intros H1; [destruct H1|]. destruct H1 as [<-|H1]; [eexists; split; [now left|auto]|]. destruct (IHForall2 H1) as (z & Hz & Pz). exists z. split; [now right|auto]. Qed.
Lemma in_bytes p l : existsb (beqb p) l = true <-> In p l.
Proof.
  rewrite existsb_exists. split; [intros (x & Hx & E); now destruct (beqb_spec p x) as [->|]|].
  intros H. exists p. split; [auto|apply beqb_refl].
Qed.
Lemma holds_shows s st : holds s st -> shows s st.
Proof.
  intros H. pose proof H as [Hv Hr He Hd Hp]. repeat apply conj.
  - eapply Forall2_impl; [|exact He]. intros b e X. pose proof (edge_represents s st b e H X) as [R1 R2 R3 R4 R5]. destruct X as [X1 X2 X3 X4 X5 X6 X7 X8 X9]. unfold is_build. unfold all_outs in X1. unfold all_ins in X3.
    rewrite app_length in X5. repeat (split; [assumption|]). intros escape var v. now apply C73_lookup.
  - intros n. now apply insert_all_find.
  - intros n. now apply insert_all_find.
  - intros Hn. unfold default_nodes. rewrite Hd. now destruct (defaults s).
  - intros Hn p. unfold default_nodes. rewrite Hd, Hn. rewrite in_concat. split.
    + intros (x & Hx & Hi). apply in_map_iff in Hx as (e & <- & Hin). rewrite <- in_rev in Hin. apply filter_In in Hi as [Ho Hu]. apply negb_true_iff in Hu.
      destruct (Forall2_in_r _ _ _ _ He Hin) as (b & Hb & X). split; [exists b; split; [auto|]; now rewrite <- (H_out _ _ _ X)|].
      intros b' Hb' Hp'. destruct (Forall2_in_l _ _ _ _ He Hb') as (e' & He' & X'). rewrite <- (H_in _ _ _ X') in Hp'.
      assert (existsb (fun e' => existsb (beqb p) (me_in e')) (ms_edges st) = true); [|congruence]. apply existsb_exists. exists e'. split; [auto|now apply in_bytes].
    + intros [(b & Hb & Ho) Hu]. destruct (Forall2_in_l _ _ _ _ He Hb) as (e & Hin & X). rewrite <- (H_out _ _ _ X) in Ho. eexists. split.
      * apply in_map_iff. exists e. split; [reflexivity|]. now apply in_rev in Hin.
      * apply filter_In. split; [auto|]. apply negb_true_iff. apply Bool.not_true_iff_false. intros T. apply existsb_exists in T as (e' & He' & T). apply in_bytes in T.
        destruct (Forall2_in_r _ _ _ _ He He') as (b' & Hb' & X'). rewrite (H_in _ _ _ X') in T. now apply (Hu b').
Qed.

(** A manifest that spells correct statements is read, and what is then known is what the statements say. *)
Theorem C105_manifest_is_read_as_written : forall ss text s fuel,
  manifest ss text -> text <> [] -> steps nodepath at_first ss s -> length text < fuel ->
  exists st, parse fuel false text = Ok st /\ shows s st.
Proof.
  intros ss text s fuel Hm Hn Hs Hf. destruct (manifest_core ss text Hm) as (f & t & -> & Hfi & Hc).
  pose proof (core_length ss t Hc) as L. rewrite app_length in Hf.
  destruct (statements_right ss t Hc f fuel start at_first s Hfi ltac:(lia) holds_first Hs) as (st & E & H).
  exists st. split; [|now apply holds_shows]. unfold parse. destruct (f ++ t); [contradiction|exact E].
Qed.
Print Assumptions C105_manifest_is_read_as_written.
(** Only the manifest that contains nothing at all is excluded: it is an error. *)
Theorem C105_exclusions_are_needed : manifest [] [] /\ forall fuel dup, parse fuel dup [] = Exit.
Proof. split; [apply mf_nil; constructor|reflexivity]. Qed.
Print Assumptions C105_exclusions_are_needed.

(** ** C107: mistakes are reported *)
Theorem C107_mistakes_are_errors : forall ss x rest text s fuel,
  manifest (ss ++ x :: rest) text -> steps nodepath at_first ss s -> wrong nodepath s x -> length text < fuel ->
  parse fuel false text = Exit.
Proof.
  intros ss x rest text s fuel Hm Hs Hw Hf. destruct (manifest_core _ text Hm) as (f & t & -> & Hfi & Hc).
  pose proof (core_length _ t Hc) as L. rewrite !app_length in *. cbn [length] in L.
  pose proof (statements_wrong ss x rest t Hc f fuel start at_first s Hfi ltac:(lia) holds_first Hs Hw) as E.
  unfold parse. destruct (f ++ t); [reflexivity|exact E].
Qed.
Print Assumptions C107_mistakes_are_errors.

(** ** C106: reading ends *)
Definition ends_a_line (text : bytes) : Prop := exists t, text = t ++ [NL].
(** The bound on the number of statements is never reached, and a manifest whose last line is complete is
    read to its end. *)
Theorem C106_reading_ends_partial : forall text dup fuel, length text < fuel ->
  parse fuel dup text <> NoFuel /\ (ends_a_line text -> parse fuel dup text <> Hang).
Proof.
  intros text dup fuel Hf. pose proof (nls_length text) as L. pose proof (statements_fine fuel dup start text sound_start ltac:(lia)) as F.
  unfold parse. destruct text as [|c text]; [split; [discriminate|intros; discriminate]|].
  destruct (statements fuel dup start (c :: text)); (split; [try discriminate; try contradiction|intros (t & E); try discriminate]).
  exfalso. apply F. right. eauto.
Qed.
Print Assumptions C106_reading_ends_partial.
(** Neither are the bounds on the loops of the scanner. *)
Theorem C106_scanner_ends : forall l fuel fuel', length l < fuel -> length l < fuel' ->
  (forall any, space_loop fuel any l = space_loop fuel' any l) /\
  (forall path buf ps, scan_loop fuel path l buf ps = scan_loop fuel' path l buf ps) /\
  (forall acc, scan_paths_loop fuel l acc = scan_paths_loop fuel' l acc).
Proof.
  intros l f f' H H'. split; [|split].
  - intros any. now apply space_loop_bound.
  - intros path buf ps. now apply scan_loop_bound.
  - intros acc. now apply scan_paths_loop_bound.
Qed.
Print Assumptions C106_scanner_ends.
(** A comment in the last line, without a line end, is read for ever. *)
Theorem C106_refuted : forall c fuel dup, (forall x, In x c -> x <> NL /\ x <> CR) -> 0 < fuel -> parse fuel dup (B "#" ++ c) = Hang.
Proof.
  intros c fuel dup Hc Hf. destruct fuel as [|fuel]; [lia|]. unfold parse. change (B "#" ++ c) with ("#"%char :: c). cbn [statements length keyword].
  change (ceqb "#" " ") with false. change (ceqb "#" "#") with true. cbv iota. cbn [comment]. change (ceqb "#" "#") with true. cbv iota.
  replace (comment_loop c) with (@Hang bytes); [reflexivity|]. induction c as [|x c IH]; [reflexivity|]. cbn [comment_loop newline].
  destruct (Hc x (or_introl eq_refl)) as [N1 N2]. destruct (ceqb_spec x CR); [contradiction|]. destruct (ceqb_spec x NL); [contradiction|].
  apply IH. intros y Hy. apply Hc. now right.
Qed.
Print Assumptions C106_refuted.

(** ** Examples *)
Definition lines (ls : list string) : bytes := concat (map (fun l => B l ++ [NL]) ls).
Definition ex_text : bytes := lines [
  "# generated"; "v = out"; ""; "pool link"; "  depth = 2"; "rule cc"; "  command = cc ${f} -o $out $in"; "  # flags"; "  f = -O1"; "  pool = link";
  "build $v/a.o $v/../b | c:  cc a$ b.c | h1 || gen"; " f = -O2 $"; "   -g"; ""; "build gen: phony"; "default out/a.o"]%string.
Definition str (s : string) : list atom := map Chr (B s).
Definition ex_stmts : list stmt := [
  SVar (B "v") (str "out");
  SPool (B "link") [(B "depth", str "2")];
  SRule (B "cc") [(B "command", str "cc " ++ [Var (B "f")] ++ str " -o " ++ [Var (B "out")] ++ str " " ++ [Var (B "in")]); (B "f", str "-O1"); (B "pool", str "link")];
  SBuild [[Var (B "v")] ++ str "/a.o"; [Var (B "v")] ++ str "/../b"] [str "c"] (B "cc") [str "a b.c"] [str "h1"] [str "gen"] [(B "f", str "-O2 -g")];
  SBuild [str "gen"] [] (B "phony") [] [] [] [];
  SDefault [str "out/a.o"]].
Definition ex_said : said := Said
  [(B "v", B "out")]
  [(B "phony", []); (B "cc", [(B "command", [PStr (B "cc "); PVar (B "f"); PStr (B " -o "); PVar (B "out"); PStr (B " "); PVar (B "in")]); (B "f", [PStr (B "-O1")]); (B "pool", [PStr (B "link")])])]
  [Build [B "out/a.o"; B "b"] [B "c"] [B "a b.c"] [B "h1"] [B "gen"] (B "cc") [(B "f", B "-O2 -g")] (Some (B "link"));
   Build [B "gen"] [] [] [] [] (B "phony") [] None]
  [B "out/a.o"]
  [(B "console", 1%Z); (B "link", 2%Z)].
Ltac letters := repeat (first [apply w_nil | apply w_char; [reflexivity|]]).
Ltac no_blank := let E := fresh "E" in intros (? & ? & [->|(? & [->| ->] & ->)] & E); discriminate E.
Ltac blank1 := first [now left | right; eexists; split; [now left|reflexivity]].
Ltac spaces := repeat (first [exact bs_nil | apply (bs_more (B " ")); [now left|]]).
Lemma a_line n v w : a_name n -> written false v w -> ~ begins_blank w -> let_line (n, v) (n ++ B " = " ++ w ++ [NL]).
Proof.
  intros Hn Hw Hb. apply (let_intro n (B " ") (B " ") v w [NL]); auto; [apply (bs_more (B " ")); [now left|exact bs_nil]..|now left].
Qed.
Lemma line_end : eol [NL]. Proof. now left. Qed.
Lemma one_path p w : p <> [] -> written true p w -> ~ begins_blank w -> paths [p] w.
Proof. intros H1 H2 H3. rewrite <- (app_nil_r w). apply (ps_more p w [] [] []); auto. constructor. Qed.

Example ex_spelled : manifest ex_stmts ex_text.
Proof.
  unfold ex_stmts.
  apply (mf_more (lines ["# generated"]%string) _ (lines ["v = out"]%string) _ (lines [""; "pool link"; "  depth = 2"; "rule cc"; "  command = cc ${f} -o $out $in"; "  # flags"; "  f = -O1"; "  pool = link";
    "build $v/a.o $v/../b | c:  cc a$ b.c | h1 || gen"; " f = -O2 $"; "   -g"; ""; "build gen: phony"; "default out/a.o"]%string)).
  { apply (fi_comment (lines ["# generated"]%string) []); [|constructor]. apply (comment_intro (B " generated") [NL]); [|apply line_end].
    cbn. intros x H. split; intros ->; repeat (destruct H as [H|H]; [discriminate H|]); exact H. }
  { apply sp_var; [intros H; repeat (destruct H as [H|H]; [discriminate H|]); exact H|].
    apply (a_line (B "v") (str "out") (B "out")); [split; [discriminate|reflexivity]|letters|no_blank]. }
  apply (mf_more (lines [""]%string) _ (lines ["pool link"; "  depth = 2"]%string) _ (lines ["rule cc"; "  command = cc ${f} -o $out $in"; "  # flags"; "  f = -O1"; "  pool = link";
    "build $v/a.o $v/../b | c:  cc a$ b.c | h1 || gen"; " f = -O2 $"; "   -g"; ""; "build gen: phony"; "default out/a.o"]%string)).
  { apply (fi_empty [NL] []); [apply line_end|constructor]. }
  { apply (sp_pool (B " ") (B "link") [] [NL] _ (lines ["  depth = 2"]%string)); [spaces|discriminate|split; [discriminate|reflexivity]|constructor|apply line_end|].
    apply (bk_let (B "  ") _ (lines ["depth = 2"]%string) [] []); [spaces|discriminate| |constructor].
    apply (a_line (B "depth") (str "2") (B "2")); [split; [discriminate|reflexivity]|letters|no_blank]. }
  apply (mf_more [] _ (lines ["rule cc"; "  command = cc ${f} -o $out $in"; "  # flags"; "  f = -O1"; "  pool = link"]%string) _
    (lines ["build $v/a.o $v/../b | c:  cc a$ b.c | h1 || gen"; " f = -O2 $"; "   -g"; ""; "build gen: phony"; "default out/a.o"]%string)).
  { constructor. }
  { apply (sp_rule (B " ") (B "cc") [] [NL] _ (lines ["  command = cc ${f} -o $out $in"; "  # flags"; "  f = -O1"; "  pool = link"]%string));
      [spaces|discriminate|split; [discriminate|reflexivity]|constructor|apply line_end|].
    apply (bk_let (B "  ") _ (lines ["command = cc ${f} -o $out $in"]%string) _ (lines ["  # flags"; "  f = -O1"; "  pool = link"]%string)); [spaces|discriminate| |].
    { apply (a_line (B "command") _ (B "cc ${f} -o $out $in")); [split; [discriminate|reflexivity]| |no_blank]. cbn [str map app B list_ascii_of_string].
      do 3 (apply w_char; [reflexivity|]). apply (w_var false (B "f") _ (B " -o $out $in")); [reflexivity|].
      do 4 (apply w_char; [reflexivity|]). apply (w_short false (B "out") _ (B " $in")); [discriminate|reflexivity|intros c r E; injection E as <- _; reflexivity|].
      do 1 (apply w_char; [reflexivity|]). apply (w_short false (B "in") _ []); [discriminate|reflexivity|discriminate|letters]. }
    apply (bk_comment (B "  ") (lines ["# flags"]%string) _ (lines ["  f = -O1"; "  pool = link"]%string)); [spaces| |].
    { apply (comment_intro (B " flags") [NL]); [|apply line_end]. cbn. intros x H. split; intros ->; repeat (destruct H as [H|H]; [discriminate H|]); exact H. }
    apply (bk_let (B "  ") _ (lines ["f = -O1"]%string) _ (lines ["  pool = link"]%string)); [spaces|discriminate| |].
    { apply (a_line (B "f") (str "-O1") (B "-O1")); [split; [discriminate|reflexivity]|letters|no_blank]. }
    apply (bk_let (B "  ") _ (lines ["pool = link"]%string) _ []); [spaces|discriminate| |constructor].
    apply (a_line (B "pool") (str "link") (B "link")); [split; [discriminate|reflexivity]|letters|no_blank]. }
  apply (mf_more [] _ (lines ["build $v/a.o $v/../b | c:  cc a$ b.c | h1 || gen"; " f = -O2 $"; "   -g"]%string) _ (lines [""; "build gen: phony"; "default out/a.o"]%string)).
  { constructor. }
  { apply (sp_build (B " ") _ (B "$v/a.o $v/../b ") [str "c"] (B "| c") (B "  ") (B "cc") (B " ") [str "a b.c"] (B "a$ b.c ") [str "h1"] (B "| h1 ") [str "gen"] (B "|| gen") [NL] _
      (lines [" f = -O2 $"; "   -g"]%string)); try spaces; try discriminate; try apply line_end; try (split; [discriminate|reflexivity]).
    - apply (ps_more _ (B "$v/a.o") (B " ") _ (B "$v/../b ")); [discriminate| |no_blank|left; exists []; split; [reflexivity|constructor]|].
      + apply (w_short true (B "v") _ (B "/a.o")); [discriminate|reflexivity|intros c r E; injection E as <- _; reflexivity|letters].
      + apply (ps_more _ (B "$v/../b") (B " ") _ []); [discriminate| |no_blank|left; exists []; split; [reflexivity|constructor]|constructor].
        apply (w_short true (B "v") _ (B "/../b")); [discriminate|reflexivity|intros c r E; injection E as <- _; reflexivity|letters].
    - apply (se_some (B "|") (B " ") _ (B "c")); [spaces| |discriminate]. apply one_path; [discriminate|letters|no_blank].
    - apply (ps_more _ (B "a$ b.c") (B " ") _ []); [discriminate| |no_blank|left; exists []; split; [reflexivity|constructor]|constructor].
      apply w_char; [reflexivity|]. apply (w_quoted true " " _ (B "b.c")); [reflexivity|letters].
    - apply (se_some (B "|") (B " ") _ (B "h1 ")); [spaces| |discriminate].
      apply (ps_more _ (B "h1") (B " ") _ []); [discriminate|letters|no_blank|left; exists []; split; [reflexivity|constructor]|constructor].
    - apply (se_some (B "||") (B " ") _ (B "gen")); [spaces| |discriminate]. apply one_path; [discriminate|letters|no_blank].
    - apply (bk_let (B " ") _ (lines ["f = -O2 $"; "   -g"]%string) [] []); [spaces|discriminate| |constructor].
      apply (a_line (B "f") (str "-O2 -g") (B "-O2 $" ++ [NL] ++ B "   -g")); [split; [discriminate|reflexivity]| |no_blank].
      cbn [str map app B list_ascii_of_string]. do 4 (apply w_char; [reflexivity|]).
      apply (w_continued false [NL] (B "   ") _ (B "-g")); [apply line_end|spaces|discriminate|no_blank|letters]. }
  apply (mf_more (lines [""]%string) _ (lines ["build gen: phony"]%string) _ (lines ["default out/a.o"]%string)).
  { apply (fi_empty [NL] []); [apply line_end|constructor]. }
  { apply (sp_build (B " ") [str "gen"] (B "gen") [] [] (B " ") (B "phony") [] [] [] [] [] [] [] [NL] [] []); try spaces; try discriminate; try apply line_end; try (split; [discriminate|reflexivity]); try constructor.
    apply one_path; [discriminate|letters|no_blank]. }
  apply (mf_more [] _ (lines ["default out/a.o"]%string) [] []).
  { constructor. }
  { apply (sp_default (B " ") _ (B "out/a.o") [NL]); [spaces|discriminate| |apply line_end]. apply one_path; [discriminate|letters|no_blank]. }
  apply mf_nil. constructor.
Qed.
Lemma walk_length l : length (snd (walk l)) <= length l.
Proof.
  unfold walk. enough (X : forall st, length (snd (fold_left walk1 l st)) <= length (snd st) + length l) by exact (X (0, [])).
  induction l as [|c l IH]; intros [u k]; cbn [fold_left length snd]; [lia|]. eapply Nat.le_trans; [apply IH|].
  unfold walk1. destruct (is_up c); [|cbn [snd]; rewrite app_length; cbn; lia].
  destruct k as [|x k]; cbn [snd]; [cbn; lia|]. assert (length (removelast (x :: k)) <= length (x :: k)); [|lia].
  rewrite removelast_firstn_len, firstn_length. lia.
Qed.
(** a path of a few names *)
Lemma a_path p q : p <> [] -> length (comps p) <= 60 -> is_abs p = false -> render false (repeat (B "..") (fst (walk (comps p))) ++ snd (walk (comps p))) = q -> canonical p q.
Proof.
  intros H1 H2 H3 H4. split; [auto|]. split; [|split; [congruence|now rewrite H3]].
  intros k. pose proof (walk_length (firstn k (comps p))) as W. rewrite firstn_length in W. lia.
Qed.
Ltac a_place := repeat (apply Forall2_cons || apply Forall2_nil); (apply a_path; [discriminate|vm_compute; lia|reflexivity|reflexivity]).
Ltac not_built_in := let H := fresh in intros H; cbn in H; repeat (destruct H as [H|H]; [discriminate H|]); first [exact H|discriminate H].
Example ex_meaning : steps nodepath at_first ex_stmts ex_said.
Proof.
  eapply ss_more. { apply st_var. intros E. discriminate E. }
  eapply ss_more. { apply (st_pool _ _ (B "link") _ 2%Z); [reflexivity|]. split; [|eexists; split; reflexivity].
    constructor; [|constructor]. split; [reflexivity|]. split; [split; [discriminate|reflexivity]|vm_compute; auto]. }
  eapply ss_more. { apply st_rule; [reflexivity|eexists; split; [left; reflexivity|discriminate]|].
    split; intros (v & H & _); cbn in H; repeat (destruct H as [H|H]; [discriminate H|]); destruct H. }
  eapply ss_more. { apply (st_build _ _ _ _ _ _ _ _ _ (Build [B "out/a.o"; B "b"] [B "c"] [B "a b.c"] [B "h1"] [B "gen"] (B "cc") [(B "f", B "-O2 -g")] (Some (B "link"))));
    [vm_compute; discriminate|reflexivity|reflexivity|a_place|a_place|a_place|a_place|a_place| | | | ].
    - cbv [all_outs b_outs b_outimp app]. repeat constructor; cbn; intros H; repeat (destruct H as [H|H]; [discriminate H|]); exact H.
    - intros p b' _ [].
    - eapply v_rule; [not_built_in|reflexivity|reflexivity|]. apply (t_str _ _ (B "link") [] []). apply t_nil.
    - intros p E. injection E as <-. vm_compute. discriminate. }
  eapply ss_more. { apply (st_build _ _ _ _ _ _ _ _ _ (Build [B "gen"] [] [] [] [] (B "phony") [] None));
    [vm_compute; discriminate|reflexivity|reflexivity|a_place|constructor|constructor|constructor|constructor| | | | ].
    - cbv [all_outs b_outs b_outimp app]. repeat constructor; cbn; intros H; exact H.
    - intros p b' Hp [<-|[]] H. cbv [all_outs b_outs b_outimp app] in Hp, H. destruct Hp as [<-|[]]. cbn in H. repeat (destruct H as [H|H]; [discriminate H|]). exact H.
    - match goal with |- value ?q ?d _ _ => change (value q d (B "pool") (innermost (scopes d) (B "pool"))) end. apply v_scope; [not_built_in|reflexivity|reflexivity].
    - discriminate. }
  eapply ss_more. { apply (st_default _ _ _ [B "out/a.o"]); [a_place|]. intros q [<-|[]]. eexists. split; [left; reflexivity|]. left. left. reflexivity. }
  apply ss_nil.
Qed.
Example ex_read : match parse 1000 false ex_text with
  | Ok st => map me_out (ms_edges st) = [[B "out/a.o"; B "b"; B "c"]; [B "gen"]] /\ map me_in (ms_edges st) = [[B "a b.c"; B "h1"; B "gen"]; []] /\
      map (fun e => edgevar (var_edge st e) true (B "command")) (ms_edges st) = [Val (Some (B "cc -O2 -g -o out/a.o b 'a b.c'")); Val None] /\
      map me_pool (ms_edges st) = [Some (B "link"); None] /\ default_nodes st = [B "out/a.o"]
  | _ => False
  end.
Proof. vm_compute. auto. Qed.
(** the same output twice *)
Example ex_wrong : exists s, steps nodepath at_first [SBuild [str "a"] [] (B "phony") [] [] [] []] s /\
  wrong nodepath s (SBuild [str "./a"] [] (B "phony") [] [] [] []) /\
  manifest ([SBuild [str "a"] [] (B "phony") [] [] [] []] ++ SBuild [str "./a"] [] (B "phony") [] [] [] [] :: []) (lines ["build a: phony"; "build ./a: phony"]%string).
Proof.
  eexists. split; [|split].
  - eapply ss_more; [|apply ss_nil]. apply (st_build _ _ _ _ _ _ _ _ _ (Build [B "a"] [] [] [] [] (B "phony") [] None));
      [vm_compute; discriminate|reflexivity|reflexivity|a_place|constructor|constructor|constructor|constructor| | | | ].
    + cbv [all_outs b_outs b_outimp app]. repeat constructor; cbn; intros H; exact H.
    + intros p b' _ [].
    + match goal with |- value ?q ?d _ _ => change (value q d (B "pool") (innermost (scopes d) (B "pool"))) end. apply v_scope; [not_built_in|reflexivity|reflexivity].
    + discriminate.
  - apply (wr_outputs _ _ _ _ _ _ _ _ _ [] [B "a"]); [reflexivity|a_place|]. right. exists (B "a"). eexists. repeat split; [now left|now left|now left].
  - apply (mf_more [] _ (lines ["build a: phony"]%string) _ (lines ["build ./a: phony"]%string)); [constructor| |].
    + apply (sp_build (B " ") [str "a"] (B "a") [] [] (B " ") (B "phony") [] [] [] [] [] [] [] [NL] [] []); try spaces; try discriminate; try apply line_end; try (split; [discriminate|reflexivity]); try constructor.
      apply one_path; [discriminate|letters|no_blank].
    + apply (mf_more [] _ (lines ["build ./a: phony"]%string) [] []); [constructor| |apply mf_nil; constructor].
      apply (sp_build (B " ") [str "./a"] (B "./a") [] [] (B " ") (B "phony") [] [] [] [] [] [] [] [NL] [] []); try spaces; try discriminate; try apply line_end; try (split; [discriminate|reflexivity]); try constructor.
      apply one_path; [discriminate|letters|no_blank].
Qed.
Example ex_rejected : map (fun ls => parse 200 false (lines ls)) [
  ["rule r"]; ["rule r"; " command = x"; " rspfile = f"]; ["pool p"]; ["pool p"; " depth = 0"]; ["pool p"; " depth = 1x"]; ["build a: r"];
  ["default a"]; ["ninja_required_version = 1.10"]; ["rule r"; " command = $command"; " pool = $pool"; "build a: r"]; ["build a: phony"; " pool = p"]]%string
  = repeat Exit 10.
Proof. vm_compute. reflexivity. Qed.
