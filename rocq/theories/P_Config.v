(** Properties of configuration templates, configuration data and generated headers. *)
From Verif Require Import Base M_Format M_Config S_Config L_Config.
Local Arguments B _ : simpl never.

(** ** C31 *)
(** For both template syntaxes and any dictionary: configuring succeeds with output [o] exactly
    when the rules of [conf_rel] derive [o], and it always ends. *)
Theorem C31_template_rules : forall cmakedefine cmakevar dict t o,
  substitute_config (mk_syntax cmakedefine cmakevar) dict t = COk o <-> conf_rel cmakedefine cmakevar dict true t o.
Proof. intros. apply substitute_spec. Qed.
Print Assumptions C31_template_rules.
Theorem C31_always_ends : forall cmakedefine cmakevar dict t,
  (exists o, substitute_config (mk_syntax cmakedefine cmakevar) dict t = COk o) \/
  substitute_config (mk_syntax cmakedefine cmakevar) dict t = CErr.
Proof.
  intros d v dict t. pose proof (conf_total d v dict (S (length t)) true t [] (Nat.lt_succ_diag_r _)) as H. unfold substitute_config.
  destruct (conf_loop _ _ _ _ _ _) as [o| |]; [left; eauto|now right|congruence].
Qed.
Print Assumptions C31_always_ends.
Definition C31_dict (k : bytes) : option cfg_value :=
  if beqb k (B "VER") then Some (VStr (B "1.2")) else if beqb k (B "N") then Some (VNum 42) else if beqb k (B "T") then Some (VBool true) else None.
Example C31_witness :
  substitute_config (mk_syntax false false) C31_dict (B "v=@VER@ \@VER@ \\@N@ a\b me@x" ++ NL :: B "#mesondefine T" ++ NL :: B "#mesondefine Q")
    = COk (B "v=1.2 @VER@ \42 a\b me@x" ++ NL :: B "#define T" ++ NL :: B "/* undef Q */") /\
  substitute_config (mk_syntax true true) C31_dict (B "${VER} @N@ \${N}" ++ NL :: B "#cmakedefine N @N@")
    = COk (B "1.2 @N@ ${N}" ++ NL :: B "#define N 42") /\
  substitute_config (mk_syntax false false) C31_dict (B "@missing@") = CErr /\
  substitute_config (mk_syntax false false) C31_dict (B "user@@host") = CErr.
Proof. vm_compute. auto. Qed.

(** ** C30 *)
(** A template in which no marker occurs and no line starts with the define word is copied. *)
Theorem C30_plain_text : forall (cmakedefine cmakevar : bool) dict (t : bytes),
  ~ occurs (if cmakevar then B "${" else B "@") t ->
  let w := if cmakedefine then B "#cmakedefine " else B "#mesondefine " in
  ~ begins w t -> (forall a b, t <> a ++ NL :: w ++ b) ->
  substitute_config (mk_syntax cmakedefine cmakevar) dict t = COk t.
Proof. intros d v dict t H1 w H2 H3. apply substitute_spec. eapply plain_rel; [apply Nat.le_refl|exact H1|intros _; exact H2|exact H3]. Qed.
Print Assumptions C30_plain_text.
(** Lines do not influence each other: a template of lines becomes the lines of the output. *)
Theorem C30_line_by_line : forall cmakedefine cmakevar dict lines outs,
  Forall2 (fun l o => substitute_config (mk_syntax cmakedefine cmakevar) dict l = COk o) lines outs ->
  substitute_config (mk_syntax cmakedefine cmakevar) dict (joinb [NL] lines) = COk (joinb [NL] outs).
Proof.
  intros d v dict lines outs H. apply substitute_spec. induction H as [|l o lines outs Hl Hr IH]; [constructor|]. apply substitute_spec in Hl.
  destruct Hr as [|l2 o2 lines outs Hl2 Hr]; [exact Hl|]. rewrite !joinb_cons. cbn [app]. now apply rel_cat.
Qed.
Print Assumptions C30_line_by_line.
Example C30_witness :
  let t := B "#define X 1 \ \\" ++ NL :: B " #mesondefine Y" ++ NL :: B "char *s = '${a}';" in
  substitute_config (mk_syntax false false) C31_dict t = COk t /\
  substitute_config (mk_syntax false false) C31_dict (joinb [NL] [B "a \b"; B "@N@"; B "c"]) = COk (joinb [NL] [B "a \b"; B "42"; B "c"]).
Proof. vm_compute. auto. Qed.
Example C30_witness_hyp : ~ occurs (B "@") (B "a \b") /\ ~ begins (B "#mesondefine ") (B "a \b").
Proof.
  split.
  - intros (a & b & E). assert (H : In "@"%char (B "a \b")) by (rewrite E; rewrite !in_app_iff; right; left; left; reflexivity).
    vm_compute in H. intuition discriminate.
  - intros [r E]. vm_compute in E. discriminate.
Qed.

(** ** C32 *)
(** Without double quotes (and NUL) reading back unquoted gives the value; without backslashes
    and newlines (and NUL) the quoted text is a C literal for the value, quotes included. *)
Theorem C32_unquote_partial : forall s, ~ In NUL s -> ~ In DQUOTE s -> get_unquoted (set_quoted s) = s.
Proof.
  intros s H1 H2. unfold set_quoted. rewrite c_str_id by assumption. cbn [app]. rewrite quote_body_plain by assumption. now apply unquote_body.
Qed.
Print Assumptions C32_unquote_partial.
Theorem C32_c_literal_partial : forall s, ~ In NUL s -> ~ In NL s -> ~ In BSLASH s -> c_literal (set_quoted s) = Some s.
Proof.
  intros s H1 H2 H3. unfold set_quoted. rewrite c_str_id by assumption. cbn [app c_literal]. change (ceqb DQUOTE DQUOTE) with true. cbv iota.
  apply c_body_quote. intros c Hc. split; intros ->; auto.
Qed.
Print Assumptions C32_c_literal_partial.
Example C32_witness :
  set_quoted (B "a b") = DQUOTE :: B "a b" ++ [DQUOTE] /\ get_unquoted (DQUOTE :: B "a b" ++ [DQUOTE]) = B "a b" /\
  set_quoted ("x"%char :: [DQUOTE]) = [DQUOTE; "x"%char; BSLASH; DQUOTE; DQUOTE] /\
  c_literal [DQUOTE; "x"%char; BSLASH; DQUOTE; DQUOTE] = Some ["x"%char; DQUOTE].
Proof. vm_compute. auto. Qed.
(** The backslash put before a quote stays when the value is read back, for every such value;
    and a backslash in the value is not escaped: at the end of it, the literal is not closed. *)
Theorem C32_quoting_refuted :
  (forall s, ~ In NUL s -> In DQUOTE s -> get_unquoted (set_quoted s) <> s) /\
  (forall s, ~ In NUL s -> ~ In DQUOTE s -> ~ In BSLASH s -> ~ In NL s -> c_literal (set_quoted (s ++ [BSLASH])) = None) /\
  c_literal (set_quoted (B "a\n")) = None /\
  c_literal (set_quoted (B "a\\n")) = Some (B "a\n") /\
  (forall s, c_literal (set_quoted (NL :: s)) = None) /\
  set_quoted ("a"%char :: NUL :: B "b") = set_quoted (B "a").
Proof.
  split; [|split; [|split; [|split; [|split]]]].
  - intros s H1 H2 E. unfold set_quoted in E. rewrite c_str_id in E by assumption. cbn [app] in E. rewrite unquote_body in E by now apply quote_body_nonul.
    apply (f_equal (@length ascii)) in E. assert (L : forall x, length x <= length (quote_body x) /\ (In DQUOTE x -> length x < length (quote_body x))).
    { clear. induction x as [|c x [IH1 IH2]]; [split; [auto|intros []]|]. cbn [quote_body In]. rewrite app_length. destruct (ceqb_spec c DQUOTE) as [->|Hc].
      - cbn [length]. split; lia.
      - cbn [length]. split; [lia|]. intros [X|X]; [congruence|]. specialize (IH2 X). lia. }
    destruct (L s) as [_ L']. specialize (L' H2). lia.
  - intros s H1 H2 H3 H4. unfold set_quoted. rewrite c_str_id. 2:{ rewrite in_app_iff. cbn [In]. intuition; vm_compute in *; congruence. }
    rewrite quote_body_plain. 2:{ rewrite in_app_iff. cbn [In]. intuition; vm_compute in *; congruence. }
    cbn [app c_literal]. change (ceqb DQUOTE DQUOTE) with true. cbv iota. rewrite <- app_assoc. cbn [app].
    induction s as [|c s IH]; [vm_compute; reflexivity|]. cbn [In] in *. cbn [app c_body].
    destruct (ceqb_spec c DQUOTE) as [->|_]; [tauto|]. destruct (ceqb_spec c NL) as [->|_]; [tauto|]. destruct (ceqb_spec c BSLASH) as [->|_]; [tauto|].
    rewrite IH by tauto. reflexivity.
  - vm_compute. reflexivity.
  - vm_compute. reflexivity.
  - intros s. unfold set_quoted, c_str. cbn [break_at]. change (ceqb NL NUL) with false. cbv iota. destruct (break_at NUL s) as [a b]. cbn [fst quote_body]. change (ceqb NL DQUOTE) with false.
    cbn [app c_literal]. change (ceqb DQUOTE DQUOTE) with true. cbn [c_body]. change (ceqb NL DQUOTE) with false. change (ceqb NL NL) with true. reflexivity.
  - vm_compute. reflexivity.
Qed.
Print Assumptions C32_quoting_refuted.

(** ** C78 *)
(** A header generated without a template has one line per entry, in order; a value of another
    type is an error. *)
Theorem C78_header : forall prefix d o,
  Forall (fun kv => ~ In NUL (fst kv) /\ forall s, snd kv = VStr s -> ~ In NUL s) d ->
  (generate_config prefix d [] = Some o <-> exists lines, Forall2 (fun kv l => header_line prefix (fst kv) (snd kv) l) d lines /\ o = concat lines).
Proof.
  intros prefix d o Hd. assert (G : forall out, generate_config prefix d out = Some o <->
      exists lines, Forall2 (fun kv l => header_line prefix (fst kv) (snd kv) l) d lines /\ o = out ++ concat lines).
  { induction Hd as [|[k v] d [Hk Hs] _ IH]; intros out.
    - cbn [generate_config]. split.
      + intros H. injection H as <-. exists []. split; [constructor|]. cbn [concat]. now rewrite app_nil_r.
      + intros (lines & H & ->). inversion H; subst. cbn [concat]. now rewrite app_nil_r.
    - cbn [fst snd] in Hk, Hs.
      assert (K : forall line, (forall l, header_line prefix k v l <-> l = line) ->
         (generate_config prefix d (out ++ line) = Some o <->
         exists lines, Forall2 (fun kv l => header_line prefix (fst kv) (snd kv) l) ((k, v) :: d) lines /\ o = out ++ concat lines)).
      { intros line Hl. rewrite IH. split.
        - intros (lines & H1 & H2). exists (line :: lines). split; [constructor; [now apply Hl|exact H1]|]. cbn [concat]. now rewrite app_assoc.
        - intros (lines & H1 & H2). inversion H1 as [|? l ? lines' Hh Ht]; subst. exists lines'. split; [exact Ht|]. apply Hl in Hh. cbn [concat]. subst l. now rewrite app_assoc. }
      cbn [generate_config]. rewrite (c_str_id k) by assumption. destruct v as [s|[]|z|p|].
      + rewrite (c_str_id s) by (apply Hs; reflexivity). apply K. intros l. split; intros H; [now inversion H|subst; constructor].
      + apply K. intros l. split; intros H; [now inversion H|subst; constructor].
      + apply K. intros l. split; intros H; [now inversion H|subst; constructor].
      + apply K. intros l. split; intros H; [now inversion H|subst; constructor].
      + split; [discriminate|]. intros (lines & H & _). inversion H as [|? ? ? ? Hh]; subst. inversion Hh.
      + split; [discriminate|]. intros (lines & H & _). inversion H as [|? ? ? ? Hh]; subst. inversion Hh. }
  rewrite G. cbn [app]. reflexivity.
Qed.
Print Assumptions C78_header.
Example C78_witness :
  generate_config "#" [(B "A", VNum 3); (B "B", VBool true); (B "C", VBool false); (B "D", VStr (B "x y"))] []
    = Some (B "#define A 3" ++ NL :: B "#define B" ++ NL :: B "#undef C" ++ NL :: B "#define D x y" ++ [NL]) /\
  generate_config "%" [(B "A", VNum (-3)); (B "B", VOther)] [] = None.
Proof. vm_compute. auto. Qed.
