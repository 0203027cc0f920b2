From Verif Require Import Base M_Tree S_Tree L_Tree M_Escape L_Escape M_Env S_Env L_Env M_Canon M_Format M_Manifest L_Meaning.
Local Arguments B _ : simpl never.

(** ** What is left of the text: no more line ends than before, and still ending with one *)
Fixpoint nls (l : bytes) : nat := match l with [] => 0 | c :: l => (if ceqb c NL then 1 else 0) + nls l end.
Definition ends_nl (l : bytes) : Prop := l = [] \/ exists t, l = t ++ [NL].
Lemma nls_length l : nls l <= length l.
Proof. induction l as [|c l IH]; [auto|]. cbn [nls length]. destruct (ceqb c NL); lia. Qed.
Lemma ends_nl_tail c l : ends_nl (c :: l) -> ends_nl l.
Proof. intros [E|(t & E)]; [discriminate|]. destruct t as [|x t]; injection E as _ E; [left; exact E|right; eauto]. Qed.
Lemma ends_nl_more c l : c <> NL -> ends_nl (c :: l) -> l <> [].
Proof. intros H [E|(t & E)] ->; [discriminate|]. destruct t as [|x t]; [injection E as E; congruence|injection E as E1 E2; destruct t; discriminate]. Qed.
Definition after (l r : bytes) : Prop := nls r <= nls l /\ (ends_nl l -> ends_nl r).
Definition below (l r : bytes) : Prop := nls r < nls l /\ (ends_nl l -> ends_nl r).
Lemma after_refl l : after l l. Proof. split; auto. Qed.
Lemma after_trans a b c : after a b -> after b c -> after a c.
Proof. intros [H1 H2] [H3 H4]. split; [lia|auto]. Qed.
Lemma below_after a b c : below a b -> after b c -> below a c.
Proof. intros [H1 H2] [H3 H4]. split; [lia|auto]. Qed.
Lemma after_below a b c : after a b -> below b c -> below a c.
Proof. intros [H1 H2] [H3 H4]. split; [lia|auto]. Qed.
Lemma below_after' a b : below a b -> after a b.
Proof. intros [H1 H2]. split; [lia|auto]. Qed.
Lemma after_cons c l : after (c :: l) l.
Proof. split; [cbn [nls]; lia|]. apply ends_nl_tail. Qed.
Lemma after_step c l r : after l r -> after (c :: l) r.
Proof. apply after_trans. apply after_cons. Qed.

Lemma newline_true l r : newline l = Some (true, r) -> below l r.
Proof.
  destruct l as [|c l]; [discriminate|]. cbn [newline]. destruct (ceqb c CR) eqn:E1.
  - destruct l as [|x l]; [discriminate|]. destruct (ceqb_spec x NL) as [->|]; [|discriminate]. intros E. injection E as <-. split.
    + cbn [nls]. change (ceqb NL NL) with true. cbv iota. destruct (ceqb c NL); lia.
    + intros H. now apply ends_nl_tail in H; apply ends_nl_tail in H.
  - destruct (ceqb_spec c NL) as [->|]; [|discriminate]. intros E. injection E as <-. split; [cbn [nls]; change (ceqb NL NL) with true; cbv iota; lia|apply ends_nl_tail].
Qed.
Lemma newline_false l r : newline l = Some (false, r) -> r = l.
Proof.
  destruct l as [|c l]; cbn [newline]; [intros E; now injection E as <-|]. destruct (ceqb c CR).
  - destruct l as [|x l]; [discriminate|]. destruct (ceqb x NL); discriminate.
  - destruct (ceqb c NL); [discriminate|]. intros E. now injection E as <-.
Qed.
Lemma newline_after l b r : newline l = Some (b, r) -> after l r.
Proof. destruct b; intros H; [apply below_after'; now apply newline_true|]. apply newline_false in H as ->. apply after_refl. Qed.
Lemma singlespace_after l b r : singlespace l = Some (b, r) -> after l r.
Proof.
  destruct l as [|c l]; cbn [singlespace]; [intros E; injection E as _ <-; apply after_refl|]. destruct (ceqb_spec c "$"%char) as [->|].
  - destruct (newline l) as [[[|] q]|] eqn:N; [| |discriminate]; intros E; injection E as _ <-.
    + apply after_step. now apply (newline_after l true).
    + destruct l as [|x l]; [|apply after_refl]. split; [reflexivity|]. intros [E|(t & E)]; [discriminate|]. destruct t as [|y t]; [discriminate|]. destruct t; discriminate.
  - destruct (ceqb c " "); intros E; injection E as _ <-; [apply after_cons|apply after_refl].
Qed.
Lemma space_loop_after f : forall any l b r, space_loop f any l = Some (b, r) -> after l r.
Proof.
  induction f as [|f IH]; intros any l b r E; [discriminate|]. cbn [space_loop] in E. destruct (singlespace l) as [[[|] q]|] eqn:S1; [| |discriminate].
  - apply (after_trans l q); [now apply (singlespace_after l true)|]. now apply (IH true q b).
  - injection E as _ <-. now apply (singlespace_after l false).
Qed.
Lemma space_after l b r : space l = Some (b, r) -> after l r.
Proof. apply space_loop_after. Qed.
Lemma span_after p l a r : span p l = (a, r) -> after l r.
Proof.
  revert a r. induction l as [|c l IH]; intros a r E; cbn [span] in E; [injection E as _ <-; apply after_refl|].
  destruct (p c); [|injection E as _ <-; apply after_refl]. destruct (span p l) as [a' r'] eqn:E'. injection E as _ <-. apply after_step. now apply (IH a').
Qed.
Lemma scan_name_after l n r : scan_name l = Some (n, r) -> after l r.
Proof.
  unfold scan_name. destruct (span isvar l) as [a q] eqn:E. destruct a; [discriminate|]. destruct (space q) as [[b q']|] eqn:E2; [|discriminate].
  intros H. injection H as _ <-. apply (after_trans l q); [now apply (span_after isvar l (a :: a0))|now apply (space_after q b)].
Qed.
Lemma escape_after buf ps l b' p' r : escape buf ps l = Some (b', p', r) -> after l r.
Proof.
  unfold escape. destruct l as [|c l]; [discriminate|]. destruct (at_eof (c :: l)); [discriminate|].
  destruct (_ || _ || _); [intros E; injection E as _ _ <-; apply after_cons|]. destruct (ceqb c "{").
  - destruct (span isvar l) as [v q] eqn:E. destruct q as [|x q]; [discriminate|]. destruct (ceqb x "}"); [|discriminate]. intros H. injection H as _ _ <-.
    apply after_step. apply (after_trans l (x :: q)); [now apply (span_after isvar l v)|apply after_cons].
  - destruct (ceqb c CR || ceqb c NL).
    + destruct (newline (c :: l)) as [[bb q]|] eqn:N; [|discriminate]. destruct (space q) as [[b2 q']|] eqn:S2; [|discriminate]. intros H. injection H as _ _ <-.
      apply (after_trans _ q); [now apply (newline_after _ bb)|now apply (space_after q b2)].
    + destruct (span issimplevar (c :: l)) as [v q] eqn:E. destruct v; [discriminate|]. intros H. injection H as _ _ <-. now apply (span_after issimplevar _ (a :: v)).
Qed.
Lemma scan_loop_after f path : forall l buf ps p' r, scan_loop f path l buf ps = Some (p', r) -> after l r.
Proof.
  induction f as [|f IH]; intros l buf ps p' r E; [discriminate|]. cbn [scan_loop] in E. destruct l as [|c l]; [injection E as _ <-; apply after_refl|].
  destruct (at_eof (c :: l)); [injection E as _ <-; apply after_refl|]. destruct (ceqb c "$").
  - destruct (escape buf ps l) as [[[b1 p1] q]|] eqn:X; [|discriminate]. apply after_step. apply (after_trans l q); [now apply (escape_after buf ps l b1 p1)|eauto].
  - destruct (path && _); [injection E as _ <-; apply after_refl|]. destruct (ceqb c CR || ceqb c NL); [injection E as _ <-; apply after_refl|]. apply after_step. eauto.
Qed.
Lemma scan_string_after path l p r : scan_string path l = Some (p, r) -> after l r.
Proof.
  unfold scan_string. destruct (scan_loop _ path l [] []) as [[p1 q]|] eqn:E; [|discriminate]. apply scan_loop_after in E. destruct path.
  - destruct (space q) as [[b q']|] eqn:E2; [|discriminate]. intros H. injection H as _ <-. apply (after_trans l q); [auto|now apply (space_after q b)].
  - intros H. now injection H as _ <-.
Qed.
Lemma scan_paths_loop_after f : forall l acc ps r, scan_paths_loop f l acc = Some (ps, r) -> after l r.
Proof.
  induction f as [|f IH]; intros l acc ps r E; [discriminate|]. cbn [scan_paths_loop] in E. destruct (scan_string true l) as [[p q]|] eqn:S1; [|discriminate].
  apply scan_string_after in S1. destruct p; [now injection E as _ <-|]. apply (after_trans l q); eauto.
Qed.
Lemma scan_paths_after l ps r : scan_paths l = Some (ps, r) -> after l r.
Proof. apply scan_paths_loop_after. Qed.
Lemma scan_char_after c l r : scan_char c l = Some r -> after l r.
Proof.
  destruct l as [|x l]; [discriminate|]. cbn [scan_char]. destruct (ceqb x c); [|discriminate]. destruct (space l) as [[b q]|] eqn:E; [|discriminate].
  intros H. injection H as <-. apply after_step. now apply (space_after l b).
Qed.
Lemma scan_pipe_after one two l n r : scan_pipe one two l = Some (n, r) -> after l r.
Proof.
  destruct l as [|c l]; cbn [scan_pipe]; [intros E; injection E as _ <-; apply after_refl|]. destruct (ceqb c "|").
  - destruct l as [|x l]; [destruct one; [|discriminate]; intros E; injection E as _ <-; apply after_cons|]. destruct (ceqb x "|").
    + destruct two; [|discriminate]. destruct (space l) as [[b q]|] eqn:E; [|discriminate]. intros H. injection H as _ <-. apply after_step, after_step. now apply (space_after l b).
    + destruct one; [|discriminate]. destruct (space (x :: l)) as [[b q]|] eqn:E; [|discriminate]. intros H. injection H as _ <-. apply after_step. now apply (space_after _ b).
  - intros E; injection E as _ <-; apply after_refl.
Qed.
Lemma scan_newline_below l r : scan_newline l = Some r -> below l r.
Proof. unfold scan_newline. destruct (newline l) as [[[|] q]|] eqn:E; try discriminate. intros H. injection H as <-. now apply newline_true. Qed.
Lemma parse_edge_below l e r : parse_edge l = Some (e, r) -> below l r.
Proof.
  unfold parse_edge. destruct (scan_paths l) as [[outs l1]|] eqn:E1; [|discriminate]. apply scan_paths_after in E1.
  destruct (scan_pipe true false l1) as [[p l2]|] eqn:E2; [|discriminate]. apply scan_pipe_after in E2.
  assert (X : forall (b : bool) l0 o l', (if b then scan_paths l0 else Some ([], l0)) = Some (o, l') -> after l0 l').
  { intros [|] l0 o l' H; [now apply (scan_paths_after _ o)|injection H as _ <-; apply after_refl]. }
  destruct (if p =? 1 then scan_paths l2 else Some ([], l2)) as [[oi l3]|] eqn:E3; [|discriminate]. apply X in E3.
  destruct (outs ++ oi) as [|x0 xs0]; [discriminate|].
  destruct (scan_char ":" l3) as [l4|] eqn:E4; [|discriminate]. apply scan_char_after in E4.
  destruct (scan_name l4) as [[rule l5]|] eqn:E5; [|discriminate]. apply scan_name_after in E5.
  destruct (scan_paths l5) as [[ins l6]|] eqn:E6; [|discriminate]. apply scan_paths_after in E6.
  destruct (scan_pipe true true l6) as [[p2 l7]|] eqn:E7; [|discriminate]. apply scan_pipe_after in E7.
  destruct (if p2 =? 1 then _ else _) as [[[imp p3] l8]|] eqn:E8; [|discriminate].
  assert (A8 : after l7 l8).
  { destruct (p2 =? 1); [|injection E8 as _ _ <-; apply after_refl]. destruct (scan_paths l7) as [[im la]|] eqn:Ea; [|discriminate].
    destruct (scan_pipe false true la) as [[pp lb]|] eqn:Eb; [|discriminate]. injection E8 as _ _ <-. apply scan_paths_after in Ea. apply scan_pipe_after in Eb. eapply after_trans; eauto. }
  destruct (if p3 =? 2 then scan_paths l8 else Some ([], l8)) as [[ord l9]|] eqn:E9; [|discriminate]. apply X in E9.
  destruct (scan_newline l9) as [l10|] eqn:E10; [|discriminate]. apply scan_newline_below in E10. intros H. injection H as _ <-.
  repeat (eapply after_below; [eassumption|]). eassumption.
Qed.

(** ** Reading ends *)
Definition fine {A} (l : bytes) (o : outcome (A * bytes)) (rel : bytes -> bytes -> Prop) : Prop :=
  match o with Ok (_, r) => rel l r | Exit => True | Hang => ~ ends_nl l | Other => True | NoFuel => False end.
Lemma comment_loop_fine l : match comment_loop l with Ok r => below l r | Exit => True | Hang => ~ ends_nl l \/ l = [] | _ => False end.
Proof.
  induction l as [|c l IH]; cbn [comment_loop].
  - cbn. now right.
  - destruct (newline (c :: l)) as [[[|] q]|] eqn:N; [now apply newline_true| |exact I].
    assert (Hc : c <> NL). { intros ->. cbn [newline] in N. discriminate N. }
    destruct (comment_loop l) as [r| | | |]; auto; [apply (after_below _ l); [apply after_cons|auto]|].
    left. intros H. destruct IH as [IH|IH]; [apply IH; now apply (ends_nl_tail c)|]. subst l. now apply (ends_nl_more c [] Hc H).
Qed.
Lemma comment_fine l : match comment l with Ok (Some r) => below l r | Ok None => True | Exit => True | Hang => ~ ends_nl l | _ => False end.
Proof.
  destruct l as [|c l]; [exact I|]. cbn [comment]. destruct (ceqb_spec c "#"%char) as [->|]; [|exact I]. pose proof (comment_loop_fine l) as H.
  destruct (comment_loop l) as [r| | | |]; cbn [bindm]; auto; [apply (after_below _ l); [apply after_cons|auto]|].
  intros E. destruct H as [H|H]; [apply H; now apply (ends_nl_tail "#"%char)|]. subst l. now apply (ends_nl_more "#"%char [] ltac:(discriminate) E).
Qed.
Lemma scan_indent_fine n : forall l, nls l < n -> fine l (scan_indent n l) after.
Proof.
  induction n as [|n IH]; intros l Hn; [lia|]. cbn [scan_indent]. destruct (space l) as [[ind q]|] eqn:E1; [|exact I]. cbn [lift bindm]. apply space_after in E1.
  pose proof (comment_fine q) as C. destruct (comment q) as [[r|]| | | |]; cbn [bindm]; try exact I; try contradiction.
  - assert (L : nls r < n) by (destruct C as [C _]; destruct E1 as [E1 _]; lia). specialize (IH r L). unfold fine in *.
    destruct (scan_indent n r) as [[b r']| | | |]; auto.
    + apply (after_trans l q); [auto|]. apply (after_trans q r); [now apply below_after'|auto].
    + intros H. apply IH. destruct C as [_ C]. apply C. now apply E1.
  - destruct ind; [|exact E1]. destruct (newline q) as [[nl q']|] eqn:N; [|exact I]. cbn [lift bindm fine]. apply (after_trans l q); [auto|now apply (newline_after q nl)].
  - cbn. intros H. apply C. now apply E1.
Qed.
Definition kfine (l : bytes) (o : outcome (option (bytes * bytes))) : Prop :=
  match o with Ok (Some (_, r)) => after l r | Ok None => True | Exit => True | Hang => ~ ends_nl l | _ => False end.
Lemma kfine_below l r o : after l r -> kfine r o -> kfine l o.
Proof. intros H. unfold kfine. destruct o as [[[w q]|]| | | |]; auto; [intros; now apply (after_trans l r)|]. intros N E. apply N. now apply H. Qed.
Lemma keyword_fine n : forall l, nls l < n -> kfine l (keyword n l).
Proof.
  induction n as [|n IH]; intros l Hn; [lia|]. cbn [keyword]. destruct l as [|c l]; [exact I|]. destruct (ceqb c " ").
  - destruct (space (c :: l)) as [[b q]|] eqn:E1; [|exact I]. cbn [lift bindm]. apply space_after in E1.
    pose proof (comment_fine q) as C. destruct (comment q) as [[r|]| | | |]; cbn [bindm]; try exact I; try contradiction.
    + apply (kfine_below _ r); [apply (after_trans _ q); [auto|now apply below_after']|]. apply IH. destruct C as [C _]. destruct E1 as [E1 _]. lia.
    + destruct (newline q) as [[[|] q']|] eqn:N; [|exact I|exact I]. cbn [lift bindm]. apply newline_true in N.
      apply (kfine_below _ q'); [apply (after_trans _ q); [auto|now apply below_after']|]. apply IH. destruct N as [N _]. destruct E1 as [E1 _]. lia.
    + cbn. intros H. apply C. now apply E1.
  - destruct (ceqb c "#").
    + pose proof (comment_fine (c :: l)) as C. destruct (comment (c :: l)) as [[r|]| | | |]; cbn [bindm]; try exact I; try contradiction; try exact C.
      apply (kfine_below _ r); [now apply below_after'|]. apply IH. destruct C as [C _]. lia.
    + destruct (ceqb c CR || ceqb c NL) eqn:EN.
      * destruct (newline (c :: l)) as [[[|] q]|] eqn:N; [| |exact I]; cbn [lift bindm].
        -- apply newline_true in N. apply (kfine_below _ q); [now apply below_after'|]. apply IH. destruct N as [N _]. lia.
        -- exfalso. cbn [newline] in N. destruct (ceqb c CR); [destruct l as [|x l]; [discriminate|]; destruct (ceqb x NL); discriminate|]. cbn [orb] in EN. rewrite EN in N. discriminate.
      * destruct (at_eof (c :: l)); [exact I|]. destruct (scan_name (c :: l)) as [[w q]|] eqn:E; [|exact I]. cbn. now apply (scan_name_after _ w).
Qed.
Lemma parselet_fine l : fine l (parselet l) below.
Proof.
  unfold parselet. destruct (scan_char "=" l) as [l1|] eqn:E1; [|exact I]. cbn [lift bindm]. apply scan_char_after in E1.
  destruct (scan_string false l1) as [[v l2]|] eqn:E2; [|exact I]. cbn [lift bindm]. apply scan_string_after in E2.
  destruct (scan_newline l2) as [l3|] eqn:E3; [|exact I]. cbn. apply scan_newline_below in E3. eapply after_below; [eassumption|]. eapply after_below; eassumption.
Qed.
Lemma fine_after {A} l r (o : outcome (A * bytes)) : after l r -> fine r o after -> fine l o after.
Proof. intros H. unfold fine. destruct o as [[w q]| | | |]; auto; [intros; now apply (after_trans l r)|]. intros N E. apply N. now apply H. Qed.
Lemma lets_fine n : forall l acc, nls l < n -> fine l (lets n l acc) after.
Proof.
  induction n as [|n IH]; intros l acc Hn; [lia|]. cbn [lets].
  pose proof (scan_indent_fine (S (length l)) l ltac:(pose proof (nls_length l); lia)) as F.
  destruct (scan_indent (S (length l)) l) as [[more q]| | | |]; cbn [bindm fine] in *; auto. destruct more; [|exact F].
  destruct (scan_name q) as [[var l1]|] eqn:E1; [|exact I]. cbn [lift bindm]. apply scan_name_after in E1.
  pose proof (parselet_fine l1) as P. destruct (parselet l1) as [[v l2]| | | |]; cbn [bindm fine] in *; auto.
  - apply (fine_after l l2); [apply (after_trans l q); [auto|apply (after_trans q l1); [auto|now apply below_after']]|]. apply IH.
    destruct P as [P _], E1 as [E1 _], F as [F _]. lia.
  - intros E. apply P. apply E1. now apply F.
Qed.

(** the trees in a state are the result of insertions *)
Definition built {V} (t : tree V) : Prop := exists kvs, insert_all Leaf kvs = Some t.
Record sound (st : mstate) : Prop := {
  S_vars : built (ms_vars st);
  S_rules : exists rs, insert_all Leaf rs = Some (ms_rules st) /\ Forall (fun y => built (snd y)) rs;
  S_pools : built (ms_pools st) }.
Lemma insert_built {V} (t : tree V) k v : built t -> exists t' o, insert t k v = Ok (t', o) /\ built t'.
Proof. intros (kvs & E). destruct (insert_next kvs t k v E) as (t' & E1 & E2). eexists _, _. split; [exact E1|]. eexists. exact E2. Qed.
Lemma last_value_in {V} (kvs : list (bytes * V)) k v : last_value kvs k = Some v -> In (k, v) kvs.
Proof.
  unfold last_value. assert (X : forall z, fold_left (fun acc kv => if beqb (fst kv) k then Some (snd kv) else acc) kvs z = Some v -> In (k, v) kvs \/ z = Some v).
  { induction kvs as [|[a b] kvs IH]; intros z E; [now right|]. cbn [fold_left fst snd] in E. apply IH in E as [E|E]; [left; now right|].
    destruct (beqb_spec a k) as [->|]; [injection E as ->; left; now left|now right]. }
  intros E. apply X in E as [E|E]; [auto|discriminate].
Qed.
Lemma rule_built st n r : sound st -> treefind (ms_rules st) n = Some r -> built r.
Proof.
  intros H E. destruct (S_rules st H) as (rs & I & F). destruct (insert_all_find _ _ _ I) as [_ X]. rewrite X in E. apply last_value_in in E.
  rewrite Forall_forall in F. exact (F _ E).
Qed.
Lemma edgevar_fuel e esc var : built (e_own e) -> built (e_rulevars e) -> Forall built (e_parents e) -> edgevar e esc var <> Fuel.
Proof.
  intros (o & Io) (r & Ir) F.
  assert (P : exists ss, Forall2 (fun bs t => mkscope bs = Some t) ss (e_parents e)).
  { induction F as [|t ts (kvs & Ik) _ (ss & IH)]; [exists []; constructor|]. exists (kvs :: ss). now constructor. }
  destruct P as (ss & P).
  set (d := Defs (firstn (e_inimpidx e) (e_in e)) (firstn (e_outimpidx e) (e_out e)) o r ss).
  assert (R : represents d e) by (constructor; auto).
  pose proof (edgevar_total d e esc R var) as T.
  intros E. now rewrite E in T.
Qed.
Lemma outputs_fine dup es ps : forall acc k, match outputs dup es ps acc k with Ok _ | Exit => True | _ => False end.
Proof. induction ps as [|p ps IH]; intros acc k; cbn [outputs]; [exact I|]. destruct (_ || _); [|apply IH]. destruct (negb dup); [exact I|apply IH]. Qed.
Lemma depth_fine env vs z : match depth env vs z with Ok _ | Exit => True | _ => False end.
Proof. revert z. induction vs as [|[k v] vs IH]; intros z; cbn [depth]; [exact I|]. destruct (beqb k _); [|exact I]. destruct (strtol _) as [n [|c r]]; [apply IH|exact I]. Qed.

Definition sfine (l : bytes) (o : outcome (mstate * bytes)) : Prop :=
  match o with Ok (st, r) => below l r /\ sound st | Exit => True | Hang => ~ ends_nl l | Other => True | NoFuel => False end.
Lemma statement_fine dup st k l : sound st -> sfine l (statement dup st k l).
Proof.
  intros H.
  assert (LETS : forall l', fine l' (lets (S (length l')) l' []) after) by (intros l'; apply lets_fine; pose proof (nls_length l'); lia).
  unfold statement. destruct (beqb k (B "build")); [|destruct (beqb k (B "default")); [|destruct (beqb k (B "include")); [exact I|destruct (beqb k (B "pool"));
    [|destruct (beqb k (B "rule")); [|destruct (beqb k (B "subninja")); [exact I|]]]]]].
  - unfold parseedge. destruct (parse_edge l) as [[t l1]|] eqn:E1; [|exact I]. cbn [lift bindm]. apply parse_edge_below in E1.
    destruct (treefind (ms_rules st) (e_rule t)) as [r|] eqn:Er; [|exact I]. apply (rule_built st _ _ H) in Er.
    specialize (LETS l1). destruct (lets (S (length l1)) l1 []) as [[vs l2]| | | |]; cbn [bindm fine sfine] in *; auto.
    + destruct (inserts_all (map (fun kv => (fst kv, enveval [ms_vars st] (snd kv))) vs)) as (own & Eo & Io). rewrite Eo. cbn [bindm].
      destruct (nodes_exit [own; ms_vars st] (e_outs t ++ e_outimp t)) as [[os ->]| ->]; [|exact I]. cbn [bindm].
      pose proof (outputs_fine dup (ms_edges st) os [] (length (e_outs t))) as O. destruct (outputs dup (ms_edges st) os [] (length (e_outs t))) as [[outs oi]| | | |]; try contradiction; [|exact I]. cbn [bindm].
      destruct (nodes_exit [own; ms_vars st] (e_ins t ++ e_imp t ++ e_ord t)) as [[is ->]| ->]; [|exact I]. cbn [bindm]. cbv zeta.
      match goal with |- context [edgevar ?e true (B "pool")] => pose proof (edgevar_fuel e true (B "pool")) as V; destruct (edgevar e true (B "pool")) as [[v|]|c|] end.
      * destruct (treefind (ms_pools st) v); [|exact I]. cbn [sfine]. split; [now apply (below_after l l1)|]. destruct H as [A1 A2 A3]. constructor; auto.
      * cbn [sfine]. split; [now apply (below_after l l1)|]. destruct H as [A1 A2 A3]. constructor; auto.
      * exact I.
      * exfalso. apply V; cbn; [eexists; exact Io|auto| |reflexivity]. constructor; [apply (S_vars st H)|constructor].
    + intros E. apply LETS. now apply E1.
  - unfold parsedefault. destruct (scan_paths l) as [[ps l1]|] eqn:E1; [|exact I]. cbn [lift bindm]. apply scan_paths_after in E1.
    destruct (nodes_exit [ms_vars st] ps) as [[ns ->]| ->]; [|exact I]. cbn [bindm]. destruct (negb _); [exact I|].
    destruct (scan_newline l1) as [l2|] eqn:E2; [|exact I]. cbn. apply scan_newline_below in E2. split; [now apply (after_below l l1)|]. destruct H as [A1 A2 A3]. constructor; auto.
  - unfold parsepool. destruct (scan_name l) as [[n l1]|] eqn:E1; [|exact I]. cbn [lift bindm]. apply scan_name_after in E1.
    destruct (insert_built (ms_pools st) n 0%Z (S_pools st H)) as (t0 & o & -> & _). cbn [bindm]. destruct o; [exact I|].
    destruct (scan_newline l1) as [l2|] eqn:E2; [|exact I]. cbn [lift bindm]. apply scan_newline_below in E2.
    specialize (LETS l2). destruct (lets (S (length l2)) l2 []) as [[vs l3]| | | |]; cbn [bindm fine sfine] in *; auto.
    + pose proof (depth_fine [ms_vars st] vs 0%Z) as D. destruct (depth [ms_vars st] vs 0) as [d| | | |]; try contradiction; [|exact I]. cbn [bindm].
      destruct (d =? 0)%Z; [exact I|]. destruct (insert_built (ms_pools st) n d (S_pools st H)) as (t1 & o & -> & Bt). cbn.
      split; [apply (after_below l l1); [auto|now apply (below_after l1 l2)]|]. destruct H as [A1 A2 A3]. constructor; auto.
    + intros E. apply LETS. apply E2. now apply E1.
  - unfold parserule. destruct (scan_name l) as [[n l1]|] eqn:E1; [|exact I]. cbn [lift bindm]. apply scan_name_after in E1.
    destruct (scan_newline l1) as [l2|] eqn:E2; [|exact I]. cbn [lift bindm]. apply scan_newline_below in E2.
    specialize (LETS l2). destruct (lets (S (length l2)) l2 []) as [[vs l3]| | | |]; cbn [bindm fine sfine] in *; auto.
    + destruct (negb _); [exact I|]. destruct (negb _); [exact I|]. destruct (inserts_all vs) as (r & Er & Ir). rewrite Er. cbn [bindm].
      destruct (S_rules st H) as (rs & Irs & F). destruct (insert_next rs (ms_rules st) n r Irs) as (t1 & E4 & I4). rewrite E4. cbn [bindm].
      destruct (last_value rs n); [exact I|]. cbn. split; [apply (after_below l l1); [auto|now apply (below_after l1 l2)]|].
      destruct H as [A1 A2 A3]. constructor; auto. cbn. exists (rs ++ [(n, r)]). split; [exact I4|]. apply Forall_app. split; [auto|]. constructor; [|constructor]. cbn. eexists; exact Ir.
    + intros E. apply LETS. apply E2. now apply E1.
  - unfold parsevar. pose proof (parselet_fine l) as P. destruct (parselet l) as [[v l1]| | | |]; cbn [bindm fine sfine] in *; auto.
    destruct (_ && _); [exact I|]. destruct (insert_built (ms_vars st) k (enveval [ms_vars st] v) (S_vars st H)) as (t1 & o & -> & Bt). cbn.
    split; [exact P|]. destruct H as [A1 A2 A3]. constructor; auto.
Qed.
Lemma statements_fine n : forall dup st l, sound st -> nls l < n ->
  match statements n dup st l with NoFuel => False | Hang => ~ ends_nl l | _ => True end.
Proof.
  induction n as [|n IH]; intros dup st l H Hn; [lia|]. cbn [statements].
  pose proof (keyword_fine (S (length l)) l ltac:(pose proof (nls_length l); lia)) as K.
  destruct (keyword (S (length l)) l) as [[[w r]|]| | | |]; cbn [bindm kfine] in *; auto.
  pose proof (statement_fine dup st w r H) as S1. destruct (statement dup st w r) as [[st' r']| | | |]; cbn [bindm sfine] in *; auto.
  - destruct S1 as [S1 H']. assert (L : nls r' < n) by (destruct S1 as [S1 _], K as [K _]; lia). specialize (IH dup st' r' H' L).
    destruct (statements n dup st' r'); auto. intros E. apply IH. apply S1. now apply K.
  - intros E. apply S1. now apply K.
Qed.
Lemma sound_start : sound start.
Proof.
  constructor.
  - exists []. reflexivity.
  - exists [(B "phony", Leaf)]. split; [reflexivity|]. constructor; [|constructor]. exists []. reflexivity.
  - exists [(B "console", 1%Z)]. reflexivity.
Qed.

(** ** The loops of the scanner do not depend on their bound *)
Lemma singlespace_shorter l r : singlespace l = Some (true, r) -> length r < length l.
Proof.
  destruct l as [|c l]; [discriminate|]. cbn [singlespace]. destruct (ceqb c "$").
  - destruct (newline l) as [[[|] q]|] eqn:N; try discriminate. intros E. injection E as <-. destruct l as [|x l]; [discriminate|]. cbn [newline] in N.
    destruct (ceqb x CR); [destruct l as [|y l]; [discriminate|]; destruct (ceqb y NL); [|discriminate]|destruct (ceqb x NL); [|discriminate]]; injection N as <-; cbn; lia.
  - destruct (ceqb c " "); [|discriminate]. intros E. injection E as <-. cbn. lia.
Qed.
Lemma space_loop_bound f : forall f' any l, length l < f -> length l < f' -> space_loop f any l = space_loop f' any l.
Proof.
  induction f as [|f IH]; intros f' any l H H'; [lia|]. destruct f' as [|f']; [lia|]. cbn [space_loop].
  destruct (singlespace l) as [[[|] r]|] eqn:E; [|reflexivity|reflexivity]. apply singlespace_shorter in E. apply IH; lia.
Qed.
(** at most one character more than was there, and then only two dollar signs *)
Lemma space_loop_length f : forall any l b r, space_loop f any l = Some (b, r) -> length r <= length l \/ length l = 1 /\ length r = 2.
Proof.
  induction f as [|f IH]; intros any l b r E; [discriminate|]. cbn [space_loop] in E. destruct (singlespace l) as [[[|] q]|] eqn:S1; [| |discriminate].
  - apply IH in E. apply singlespace_shorter in S1. left. lia.
  - injection E as _ <-. destruct l as [|c l]; [injection S1 as <-; left; lia|]. cbn [singlespace] in S1. destruct (ceqb c "$").
    + destruct (newline l) as [[[|] q']|]; try discriminate. injection S1 as <-. destruct l; cbn; lia.
    + destruct (ceqb c " "); [discriminate|]. injection S1 as <-. left. lia.
Qed.
Lemma space_length l b r : space l = Some (b, r) -> length r <= length l \/ length l = 1 /\ length r = 2.
Proof. apply space_loop_length. Qed.
Lemma span_length (p : ascii -> bool) l a r : span p l = (a, r) -> length r + length a = length l.
Proof.
  revert a r. induction l as [|c l IH]; intros a r E; cbn [span] in E; [injection E as <- <-; reflexivity|].
  destruct (p c); [|injection E as <- <-; cbn; lia]. destruct (span p l) as [a' r'] eqn:E'. injection E as <- <-. specialize (IH a' r' eq_refl). cbn [length]. lia.
Qed.
Lemma newline_shorter l r : newline l = Some (true, r) -> length r < length l.
Proof.
  destruct l as [|c l]; [discriminate|]. cbn [newline]. destruct (ceqb c CR); [destruct l as [|y l]; [discriminate|]; destruct (ceqb y NL); [|discriminate]|destruct (ceqb c NL); [|discriminate]];
    intros E; injection E as <-; cbn; lia.
Qed.
Lemma escape_shorter buf ps l b' p' r : escape buf ps l = Some (b', p', r) -> length r <= length l.
Proof.
  unfold escape. destruct l as [|c l]; [discriminate|]. destruct (at_eof (c :: l)); [discriminate|].
  destruct (_ || _ || _); [intros E; injection E as _ _ <-; cbn; lia|]. destruct (ceqb c "{").
  - destruct (span isvar l) as [v q] eqn:E. destruct q as [|x q]; [discriminate|]. destruct (ceqb x "}"); [|discriminate]. intros H. injection H as _ _ <-.
    apply span_length in E. cbn [length] in *. lia.
  - destruct (ceqb c CR || ceqb c NL) eqn:EN.
    + destruct (newline (c :: l)) as [[bb q]|] eqn:N; [|discriminate]. destruct (space q) as [[b2 q']|] eqn:S2; [|discriminate]. intros H. injection H as _ _ <-.
      assert (bb = true) as ->. { cbn [newline] in N. destruct (ceqb c CR); [destruct l as [|x l]; [discriminate|]; destruct (ceqb x NL); [now injection N|discriminate]|]. cbn [orb] in EN. rewrite EN in N. now injection N. }
      apply newline_shorter in N. apply space_length in S2. lia.
    + destruct (span issimplevar (c :: l)) as [v q] eqn:E. destruct v; [discriminate|]. intros H. injection H as _ _ <-. apply span_length in E. cbn [length] in *. lia.
Qed.
Lemma scan_loop_bound f : forall f' path l buf ps, length l < f -> length l < f' -> scan_loop f path l buf ps = scan_loop f' path l buf ps.
Proof.
  induction f as [|f IH]; intros f' path l buf ps H H'; [lia|]. destruct f' as [|f']; [lia|]. cbn [scan_loop]. destruct l as [|c l]; [reflexivity|]. cbn [length] in *.
  destruct (at_eof (c :: l)); [reflexivity|]. destruct (ceqb c "$").
  - destruct (escape buf ps l) as [[[b1 p1] q]|] eqn:E; [|reflexivity]. apply escape_shorter in E. apply IH; lia.
  - destruct (path && _); [reflexivity|]. destruct (_ || _); [reflexivity|]. apply IH; lia.
Qed.
Lemma scan_loop_length f path : forall l buf ps p r, scan_loop f path l buf ps = Some (p, r) ->
  length r <= length l /\ (length r = length l -> p = flush buf ps /\ r = l) /\ match r with [] => True | c :: _ => c <> "$"%char end.
Proof.
  induction f as [|f IH]; intros l buf ps p r E; [discriminate|]. cbn [scan_loop] in E. destruct l as [|c l]; [injection E as <- <-; auto|].
  destruct (at_eof (c :: l)) eqn:Ee.
  { injection E as <- <-. split; [auto|]. split; [auto|]. intros ->. discriminate Ee. }
  destruct (ceqb_spec c "$"%char) as [->|Hc].
  - destruct (escape buf ps l) as [[[b1 p1] q]|] eqn:X; [|discriminate]. apply escape_shorter in X. apply IH in E as (E1 & _ & E3). cbn [length]. split; [lia|]. split; [lia|auto].
  - destruct (path && _); [injection E as <- <-; auto|]. destruct (_ || _); [injection E as <- <-; auto|]. apply IH in E as (E1 & _ & E3). cbn [length]. split; [lia|]. split; [lia|auto].
Qed.
Lemma scan_string_shorter l p r : scan_string true l = Some (p, r) -> p <> [] -> length r < length l.
Proof.
  unfold scan_string. destruct (scan_loop _ true l [] []) as [[p1 q]|] eqn:E; [|discriminate]. apply scan_loop_length in E as (E1 & E2 & E3).
  destruct (space q) as [[b q']|] eqn:S2; [|discriminate]. intros H Hp. injection H as -> <-.
  assert (L : length q < length l). { destruct (Nat.eq_dec (length q) (length l)) as [Eq|]; [|lia]. destruct (E2 Eq) as [-> _]. now destruct Hp. }
  assert (length q' <= length q); [|lia]. unfold space in S2. destruct q as [|c q]; [injection S2 as _ <-; auto|].
  cbn [space_loop] in S2. destruct (singlespace (c :: q)) as [[[|] q2]|] eqn:S1; [| |discriminate].
  - apply space_loop_length in S2. apply singlespace_shorter in S1. lia.
  - injection S2 as _ <-. cbn [singlespace] in S1. destruct (ceqb_spec c "$"%char); [contradiction|]. destruct (ceqb c " "); [discriminate|]. injection S1 as <-. auto.
Qed.
Lemma scan_paths_loop_bound f : forall f' l acc, length l < f -> length l < f' -> scan_paths_loop f l acc = scan_paths_loop f' l acc.
Proof.
  induction f as [|f IH]; intros f' l acc H H'; [lia|]. destruct f' as [|f']; [lia|]. cbn [scan_paths_loop].
  destruct (scan_string true l) as [[p r]|] eqn:E; [|reflexivity]. destruct p as [|x p]; [reflexivity|]. apply scan_string_shorter in E; [|discriminate]. apply IH; lia.
Qed.
