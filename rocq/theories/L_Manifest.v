From Verif Require Import Base M_Tree S_Tree L_Tree M_Escape L_Escape M_Env S_Env L_Env M_Canon S_Path L_Path L_Canon P_Canon M_Format S_Format L_Format M_Manifest S_Manifest.
Local Arguments B _ : simpl never.
Local Arguments mem_char : simpl never.

(** ** Characters *)
Lemma simple_char_eq c : simple_char c = issimplevar c.
Proof. unfold simple_char, issimplevar, mem_char, B. cbn [existsb list_ascii_of_string]. destruct (is_alnum c), (ceqb c "_"), (ceqb c "-"); reflexivity. Qed.
Lemma name_char_eq c : name_char c = isvar c.
Proof. unfold name_char, isvar, issimplevar, mem_char, B. cbn [existsb list_ascii_of_string]. destruct (is_alnum c), (ceqb c "_"), (ceqb c "-"), (ceqb c "."); reflexivity. Qed.
Lemma forallb_ext' (f g : ascii -> bool) l : (forall c, f c = g c) -> forallb f l = forallb g l.
Proof. intros H. induction l as [|c l IH]; [reflexivity|]. cbn [forallb]. now rewrite H, IH. Qed.

(** ** Newlines and blanks *)
Lemma newline_eol e r : eol e -> newline (e ++ r) = Some (true, r).
Proof. intros [-> | ->]; reflexivity. Qed.
Lemma singlespace_blank b r : blank b -> singlespace (b ++ r) = Some (true, r).
Proof. intros [->|(e & [-> | ->] & ->)]; reflexivity. Qed.
Definition nonempty (b : bytes) : bool := match b with [] => false | _ => true end.
Lemma blank_nonempty b : blank b -> exists c t, b = c :: t.
Proof. intros [->|(e & [-> | ->] & ->)]; unfold B; cbn; eauto. Qed.
Lemma space_loop_bs b : blanks b -> forall f any r, no_space r -> length b < f ->
  space_loop f any (b ++ r) = Some (any || nonempty b, r).
Proof.
  induction 1 as [|b t Hb _ IH]; intros f any r Hr Hf; (destruct f as [|f]; [lia|]).
  - cbn [app nonempty]. rewrite space_loop_no by auto. now rewrite orb_false_r.
  - rewrite <- app_assoc. cbn [space_loop]. rewrite (singlespace_blank b _ Hb).
    destruct (blank_nonempty b Hb) as (c & b' & ->). rewrite IH; auto.
    + cbn [app nonempty]. now rewrite orb_true_r.
    + rewrite app_length in Hf. cbn [length] in Hf. lia.
Qed.
Lemma space_bs b r : blanks b -> no_space r -> space (b ++ r) = Some (nonempty b, r).
Proof. intros H1 H2. unfold space. rewrite (space_loop_bs b H1); auto. rewrite app_length. lia. Qed.
Lemma space_none r : no_space r -> space r = Some (false, r).
Proof. intros H. unfold space. now rewrite space_loop_no. Qed.
Lemma blanks_head b : blanks b -> b = [] \/ exists c t, b = c :: t /\ (c = " "%char \/ c = "$"%char).
Proof.
  intros [|b' t [->|(e & _ & ->)] _]; [now left|right..]; unfold B; cbn; eauto.
Qed.

Lemma no_space_head c r : c <> " "%char -> c <> "$"%char -> no_space (c :: r).
Proof. intros H1 H2. split; [auto|]. intros E. congruence. Qed.
Lemma no_space_eol e r : eol e -> no_space (e ++ r).
Proof. intros [-> | ->]; apply no_space_head; discriminate. Qed.
Lemma isvar_not c : isvar c = true -> c <> " "%char /\ c <> "$"%char /\ c <> NL /\ c <> CR /\ c <> "#"%char /\ c <> EOFB /\ c <> "|"%char /\ c <> ":"%char /\ c <> "="%char.
Proof. intros H. repeat split; intros ->; discriminate H. Qed.
Lemma a_name_head n : a_name n -> exists c t, n = c :: t /\ isvar c = true.
Proof. intros [Hne H]. destruct n as [|c n]; [congruence|]. cbn [forallb] in H. apply andb_true_iff in H as [H _]. rewrite name_char_eq in H. eauto. Qed.
Lemma no_space_name n r : a_name n -> no_space (n ++ r).
Proof. intros H. destruct (a_name_head n H) as (c & t & -> & Hc). destruct (isvar_not c Hc) as (? & ? & _). now apply no_space_head. Qed.

Lemma scan_name_bs n b r : a_name n -> blanks b -> no_space r -> (b = [] -> forall c t, r = c :: t -> isvar c = false) ->
  scan_name (n ++ b ++ r) = Some (n, r).
Proof.
  intros [Hne Hn] Hb Hr Hh. unfold scan_name. rewrite span_all.
  - rewrite (space_bs b r Hb Hr). destruct n; [congruence|reflexivity].
  - rewrite <- Hn. apply forallb_ext'. intros c. symmetry. apply name_char_eq.
  - destruct (blanks_head b Hb) as [->|(c & t & -> & [-> | ->])]; [|reflexivity|reflexivity].
    cbn [app]. destruct r as [|c t]; [auto|]. now apply (Hh eq_refl c t).
Qed.

(** ** Values *)
Lemma no_space_written path as' w r : written path as' w -> w <> [] -> ~ begins_blank w -> no_space (w ++ r).
Proof.
  intros H Hne Hb. destruct H as [|c as' t Hc _|c as' t Hc _|v as' t Hv _|v as' t Hv Hs _ _|e b as' t He Hbs Ht _ _].
  - congruence.
  - cbn [app]. apply no_space_head; intros ->.
    + apply Hb. exists (B " "), t. split; [now left|reflexivity].
    + discriminate Hc.
  - cbn. split; [discriminate|]. intros _. exists c, (t ++ r). split; [reflexivity|]. split; intros ->; discriminate Hc.
  - cbn. split; [discriminate|]. intros _. eexists _, _. split; [reflexivity|]. split; discriminate.
  - destruct v as [|c v]; [congruence|]. cbn [forallb] in Hs. apply andb_true_iff in Hs as [Hs _].
    cbn. split; [discriminate|]. intros _. exists c, ((v ++ t) ++ r). split; [reflexivity|]. split; intros ->; discriminate Hs.
  - exfalso. apply Hb. exists (B "$" ++ e), (b ++ t). split; [right; eauto|]. now rewrite <- app_assoc.
Qed.

Definition stop (path : bool) (r : bytes) : Prop :=
  r = [] \/ exists c t, r = c :: t /\ (c = NL \/ c = CR \/ path = true /\ (c = " "%char \/ c = ":"%char \/ c = "|"%char)).
Lemma scan_loop_stops f path r buf ps : stop path r -> scan_loop (S f) path r buf ps = Some (flush buf ps, r).
Proof. intros [->|(c & t & -> & [->|[->|[-> [->|[->| ->]]]]])]; try reflexivity; destruct path; reflexivity. Qed.
Lemma stop_simple path r c t : stop path r -> r = c :: t -> issimplevar c = false.
Proof. intros [->|(c' & t' & -> & H)] E; [discriminate|]. injection E as <- <-. destruct H as [->|[->|[_ [->|[->| ->]]]]]; reflexivity. Qed.

Definition glue (buf : bytes) (ps : list part) : list part :=
  match buf with
  | [] => ps
  | _ => match ps with PStr s :: ps' => PStr (buf ++ s) :: ps' | _ => PStr buf :: ps end
  end.
Lemma glue_chr buf c as' : glue (buf ++ [c]) (pieces_of as') = glue buf (pieces_of (Chr c :: as')).
Proof.
  cbn [pieces_of]. destruct buf as [|x buf].
  - cbn [app glue]. destruct (pieces_of as') as [|[s|v] ps]; reflexivity.
  - cbn [app glue]. destruct (pieces_of as') as [|[s|v] ps]; try reflexivity. now rewrite <- app_assoc.
Qed.
Lemma glue_var buf v ps parts : parts ++ glue buf (PVar v :: ps) = (flush buf parts ++ [PVar v]) ++ ps.
Proof. destruct buf as [|x buf]; cbn [glue flush]; rewrite <- !app_assoc; reflexivity. Qed.

Lemma scan_loop_written path as' w : written path as' w -> forall f buf parts r, stop path r -> length w < f ->
  scan_loop f path (w ++ r) buf parts = Some (parts ++ glue buf (pieces_of as'), r).
Proof.
  induction 1 as [|c as' t Hc _ IH|c as' t Hc _ IH|v as' t Hv _ IH|v as' t Hv Hs Hn _ IH|e b as' t He Hbs Ht Hnb Hw IH];
    intros f buf parts r Hr Hf; (destruct f as [|f]; [lia|]).
  - cbn [app]. rewrite scan_loop_stops by auto. destruct buf; cbn [flush pieces_of glue]; [now rewrite app_nil_r|reflexivity].
  - cbn [length] in Hf. cbn [app scan_loop at_eof]. unfold plain in Hc. apply andb_true_iff in Hc as [Hc Hp].
    apply negb_true_iff in Hc, Hp.
    assert (N : ceqb c EOFB = false /\ ceqb c "$" = false /\ ceqb c CR = false /\ ceqb c NL = false).
    { repeat split; apply ceqb_neq; intros ->; discriminate Hc. }
    destruct N as (N1 & N2 & N3 & N4). rewrite N1, N2, N3, N4.
    assert (P : path && (ceqb c ":" || ceqb c "|" || ceqb c " ") = false).
    { destruct path; [|reflexivity]. cbn [andb] in *. destruct (ceqb_spec c ":"%char) as [->|]; [discriminate Hp|].
      destruct (ceqb_spec c "|"%char) as [->|]; [discriminate Hp|]. destruct (ceqb_spec c " "%char) as [->|]; [discriminate Hp|]. reflexivity. }
    rewrite P. cbn [orb]. rewrite IH by (auto; lia). now rewrite glue_chr.
  - cbn [app length] in Hf. unfold B in *. cbn [list_ascii_of_string app length] in *. cbn [scan_loop at_eof].
    change (ceqb "$" EOFB) with false. change (ceqb "$" "$") with true. cbv iota. unfold escape. cbn [at_eof].
    assert (N : ceqb c EOFB = false) by (apply ceqb_neq; intros ->; discriminate Hc). rewrite N.
    assert (P : ceqb c "$" || ceqb c " " || ceqb c ":" = true).
    { unfold mem_char in Hc. cbn [existsb] in Hc. destruct (ceqb c "$"), (ceqb c " "), (ceqb c ":"); auto. }
    rewrite P. rewrite IH by (auto; lia). now rewrite glue_chr.
  - change (B "${") with ["$"%char; "{"%char] in *. change (B "}") with ["}"%char] in *. rewrite !app_length in Hf. cbn [length] in Hf.
    rewrite <- !app_assoc. cbn [app scan_loop at_eof]. change (ceqb "$" EOFB) with false. change (ceqb "$" "$") with true. cbv iota.
    unfold escape. cbn [at_eof]. change (ceqb "{" EOFB) with false. change (ceqb "{" "$" || ceqb "{" " " || ceqb "{" ":") with false. change (ceqb "{" "{") with true. cbv iota.
    rewrite span_all; [|rewrite <- Hv; apply forallb_ext'; intros; symmetry; apply name_char_eq|reflexivity].
    change (ceqb "}" "}") with true. cbv iota. rewrite IH by (auto; lia). cbn [pieces_of]. now rewrite glue_var.
  - change (B "$") with ["$"%char] in *. rewrite !app_length in Hf. cbn [length] in Hf.
    rewrite <- !app_assoc. cbn [app scan_loop at_eof]. change (ceqb "$" EOFB) with false. change (ceqb "$" "$") with true. cbv iota.
    destruct v as [|c v]; [congruence|].
    assert (Hc : issimplevar c = true). { cbn [forallb] in Hs. apply andb_true_iff in Hs as [Hs _]. now rewrite <- simple_char_eq. }
    unfold escape. cbn [app at_eof].
    assert (N : ceqb c EOFB = false /\ (ceqb c "$" || ceqb c " " || ceqb c ":") = false /\ ceqb c "{" = false /\ (ceqb c CR || ceqb c NL) = false).
    { assert (X : forall y, issimplevar y = false -> ceqb c y = false) by (intros y Hy; apply ceqb_neq; congruence).
      rewrite !X by reflexivity. auto. }
    destruct N as (N1 & N2 & N3 & N4). rewrite N1, N2, N3, N4.
    change (c :: v ++ t ++ r) with ((c :: v) ++ t ++ r). rewrite span_all.
    + cbn [length] in Hf. rewrite IH by (auto; lia). cbn [pieces_of]. now rewrite glue_var.
    + rewrite <- Hs. apply forallb_ext'. intros x. symmetry. apply simple_char_eq.
    + destruct t as [|x t]; cbn [app].
      * destruct r as [|x r]; [auto|]. now apply (stop_simple path (x :: r) x r).
      * rewrite <- simple_char_eq. now apply (Hn x t).
  - change (B "$") with ["$"%char] in *. rewrite !app_length in Hf. cbn [length] in Hf.
    rewrite <- !app_assoc. cbn [app scan_loop at_eof]. change (ceqb "$" EOFB) with false. change (ceqb "$" "$") with true. cbv iota.
    assert (E : escape buf parts (e ++ b ++ t ++ r) = Some (buf, parts, t ++ r)).
    { assert (X : escape buf parts (e ++ b ++ t ++ r) = match newline (e ++ b ++ t ++ r) with
        | Some (_, r') => match space r' with Some (_, r'') => Some (buf, parts, r'') | None => None end | None => None end).
      { destruct He as [-> | ->]; reflexivity. }
      rewrite X, (newline_eol e _ He), (space_bs b _ Hbs); [reflexivity|]. now apply (no_space_written path as'). }
    rewrite E. apply IH; [auto|]. destruct He as [-> | ->]; cbn [length] in Hf; lia.
Qed.
Lemma scan_value v w r : written false v w -> stop false r -> scan_string false (w ++ r) = Some (pieces_of v, r).
Proof. intros H Hr. unfold scan_string. rewrite (scan_loop_written false v w H) by (auto; rewrite app_length; lia). reflexivity. Qed.
Lemma pieces_nonempty v : v <> [] -> pieces_of v <> [].
Proof. destruct v as [|[c|x] v]; [congruence| |discriminate]. intros _. cbn [pieces_of]. destruct (pieces_of v) as [|[s|y] ps]; discriminate. Qed.
Lemma scan_path p w b r : written true p w -> blanks b -> no_space r -> stop true (b ++ r) ->
  scan_string true (w ++ b ++ r) = Some (pieces_of p, r).
Proof.
  intros H Hb Hr Hs. unfold scan_string. rewrite (scan_loop_written true p w H) by (auto; rewrite app_length; lia).
  rewrite (space_bs b r Hb Hr). reflexivity.
Qed.

(** ** Paths *)
Definition ends (r : bytes) : Prop := exists c t, r = c :: t /\ (c = ":"%char \/ c = "|"%char \/ c = NL \/ c = CR).
Lemma ends_stop r : ends r -> stop true r.
Proof. intros (c & t & -> & H). right. exists c, t. intuition. Qed.
Lemma ends_space r : ends r -> no_space r.
Proof. intros (c & t & -> & [->|[->|[->| ->]]]); apply no_space_head; discriminate. Qed.
Lemma ends_eol e r : eol e -> ends (e ++ r).
Proof. intros [-> | ->]; eexists _, _; (split; [reflexivity|]); auto. Qed.
Lemma written_nonempty path as' w : written path as' w -> as' <> [] -> w <> [].
Proof. intros W N. destruct W; [congruence|discriminate..]. Qed.
Lemma paths_space ps w r : paths ps w -> ends r -> no_space (w ++ r).
Proof.
  intros [|p w' b ps' t Hp Hw Hb _ _] Hr; [now apply ends_space|]. rewrite <- app_assoc. apply (no_space_written true p); auto.
  now apply (written_nonempty true p).
Qed.
Lemma gap_blanks b ps : gap b \/ b = [] /\ ps = @nil (list atom) -> blanks b.
Proof. intros [(b' & -> & Hb)|[-> _]]; [|constructor]. constructor; [now left|auto]. Qed.
Lemma scan_paths_loop_ok ps w : paths ps w -> forall f r acc, ends r -> length ps < f ->
  scan_paths_loop f (w ++ r) acc = Some (acc ++ map pieces_of ps, r).
Proof.
  induction 1 as [|p w b ps t Hp Hw Hb Hg Ht IH]; intros f r acc Hr Hf; (destruct f as [|f]; [lia|]); cbn [scan_paths_loop].
  - cbn [app map]. change r with ([] ++ [] ++ r) at 1. rewrite (scan_path [] [] [] r); [|constructor|constructor|now apply ends_space|now apply ends_stop].
    cbn [pieces_of]. now rewrite app_nil_r.
  - rewrite <- !app_assoc. rewrite (scan_path p w b (t ++ r)).
    + pose proof (pieces_nonempty p Hp) as Hn. destruct (pieces_of p) as [|x xs] eqn:E; [congruence|].
      rewrite IH by (auto; cbn [length] in Hf; lia). cbn [map]. rewrite E, <- app_assoc. reflexivity.
    + exact Hw.
    + now apply (gap_blanks b ps).
    + now apply (paths_space ps).
    + destruct Hg as [(b' & -> & _)|[-> ->]].
      * right. exists " "%char, (b' ++ t ++ r). split; [reflexivity|]. auto 6.
      * inversion Ht; subst. now apply ends_stop.
Qed.
Lemma paths_length ps w : paths ps w -> length ps <= length w.
Proof.
  induction 1 as [|p w b ps t Hp Hw Hb Hg Ht IH]; [auto|]. pose proof (written_nonempty true p w Hw Hp) as Hn.
  rewrite !app_length. destruct w; [congruence|]. cbn [length]. lia.
Qed.
Lemma scan_paths_ok ps w r : paths ps w -> ends r -> scan_paths (w ++ r) = Some (map pieces_of ps, r).
Proof. intros H Hr. unfold scan_paths. rewrite (scan_paths_loop_ok ps w H); auto. rewrite app_length. pose proof (paths_length ps w H). lia. Qed.

(** ** Lines *)
Definition given (xs : list (bytes * list atom)) : list (bytes * list part) := map (fun x => (fst x, pieces_of (snd x))) xs.
Lemma scan_char_bs c b r : blanks b -> no_space r -> scan_char c ([c] ++ b ++ r) = Some r.
Proof. intros Hb Hr. cbn [app scan_char]. rewrite ceqb_refl, (space_bs b r Hb Hr). reflexivity. Qed.
Lemma stop_eol e r : eol e -> stop false (e ++ r).
Proof. intros [-> | ->]; right; eexists _, _; (split; [reflexivity|]); auto. Qed.
Lemma scan_newline_eol e r : eol e -> scan_newline (e ++ r) = Some r.
Proof. intros He. unfold scan_newline. now rewrite newline_eol. Qed.
(** reading a let line: its name, then the rest *)
Lemma let_line_ok n v w r : let_line (n, v) w -> exists m, scan_name (w ++ r) = Some (n, m) /\ parselet m = Ok (pieces_of v, r).
Proof.
  intros H. inversion H as [n' b b' v' w' e Hn Hb Hb' Hw Hnb He E1 E2]; subst.
  assert (Hv : no_space (w' ++ e ++ r)).
  { destruct w' as [|c w']; [change (no_space (e ++ r)); now apply no_space_eol|]. apply (no_space_written false v); auto. discriminate. }
  exists (B "=" ++ b' ++ w' ++ e ++ r). split.
  - rewrite <- !app_assoc. apply scan_name_bs; auto.
    + apply no_space_head; discriminate.
    + intros _ c t E. injection E as <- _. reflexivity.
  - unfold parselet. change (B "=") with ["="%char]. rewrite scan_char_bs by auto. cbn [lift bindm].
    rewrite (scan_value v w' _ Hw) by (now apply stop_eol). cbn [lift bindm]. rewrite (scan_newline_eol e r He). reflexivity.
Qed.
Lemma let_line_head x w : let_line x w -> exists c t, w = c :: t /\ isvar c = true.
Proof. intros [n b b' v w' e Hn _ _ _ _ _]. destruct (a_name_head n Hn) as (c & t & -> & Hc). cbn [app]. eauto. Qed.

Lemma comment_loop_ok c : (forall x, In x c -> x <> NL /\ x <> CR) -> forall e r, eol e -> comment_loop (c ++ e ++ r) = Ok r.
Proof.
  induction c as [|x c IH]; intros H e r He.
  - cbn [app]. destruct He as [-> | ->]; reflexivity.
  - cbn [app comment_loop newline]. destruct (H x (or_introl eq_refl)) as [H1 H2]. apply ceqb_neq in H1, H2. rewrite H1, H2.
    apply IH; auto. intros y Hy. apply H. now right.
Qed.
Lemma comment_ok w r : comment_line w -> comment (w ++ r) = Ok (Some r).
Proof.
  intros [c e Hc He]. change (B "#") with ["#"%char]. cbn [app comment]. rewrite ceqb_refl, <- app_assoc, comment_loop_ok by auto. reflexivity.
Qed.
Lemma comment_head w : comment_line w -> exists t, w = "#"%char :: t.
Proof. intros [c e _ _]. unfold B. cbn. eauto. Qed.
Lemma comment_none c r : c <> "#"%char -> comment (c :: r) = Ok None.
Proof. intros H. cbn [comment]. apply ceqb_neq in H. now rewrite H. Qed.
Lemma no_space_comment w r : comment_line w -> no_space (w ++ r).
Proof. intros H. destruct (comment_head w H) as [t ->]. apply no_space_head; discriminate. Qed.
Lemma comment_length w : comment_line w -> 2 <= length w.
Proof. intros [c e _ He]. unfold B. cbn. rewrite app_length. destruct He as [-> | ->]; cbn; lia. Qed.

(** ** Between statements *)
(** the end, or the first word of a statement *)
Definition begins (t : bytes) : Prop := t = [] \/ exists c r, t = c :: r /\ isvar c = true.
Lemma begins_space t : begins t -> no_space t.
Proof. intros [->|(c & r & -> & Hc)]; [constructor|]. destruct (isvar_not c Hc) as (? & ? & _). now apply no_space_head. Qed.
Lemma begins_comment t : begins t -> comment t = Ok None.
Proof. intros [->|(c & r & -> & Hc)]; [reflexivity|]. apply isvar_not in Hc. now apply comment_none. Qed.

Lemma indent_filler f : filler f -> forall t n, begins t -> length f < n ->
  exists f', filler f' /\ scan_indent n (f ++ t) = Ok (false, f' ++ t).
Proof.
  induction 1 as [|e t0 He Hf IH|w t0 Hw Hf IH|b e t0 Hb He Hf IH|b w t0 Hb Hw Hf IH]; intros t n Ht Hn; (destruct n as [|n]; [lia|]).
  - exists []. split; [constructor|]. cbn [app scan_indent]. rewrite (space_none t) by (now apply begins_space). cbn [lift bindm].
    rewrite begins_comment by auto. reflexivity.
  - exists (e ++ t0). split; [now constructor|]. cbn [scan_indent]. rewrite <- app_assoc. rewrite (space_none (e ++ t0 ++ t)) by (now apply no_space_eol).
    cbn [lift bindm]. destruct He as [-> | ->]; reflexivity.
  - cbn [scan_indent]. rewrite <- app_assoc. rewrite (space_none (w ++ _)) by (now apply no_space_comment). cbn [lift bindm].
    rewrite (comment_ok w _ Hw). cbn [bindm]. apply IH; auto. rewrite app_length in Hn. pose proof (comment_length w Hw). lia.
  - exists t0. split; [auto|]. cbn [scan_indent]. replace ((B " " ++ b ++ e ++ t0) ++ t) with ((B " " ++ b) ++ e ++ t0 ++ t) by (now rewrite <- !app_assoc).
    rewrite space_bs; [|constructor; [now left|auto]|now apply no_space_eol]. cbn [lift bindm].
    assert (E : comment (e ++ t0 ++ t) = Ok None) by (destruct He as [-> | ->]; reflexivity). rewrite E. cbn [bindm]. change (nonempty (B " " ++ b)) with true. cbv iota.
    rewrite (newline_eol e _ He). reflexivity.
  - cbn [scan_indent]. replace ((B " " ++ b ++ w ++ t0) ++ t) with ((B " " ++ b) ++ w ++ t0 ++ t) by (now rewrite <- !app_assoc).
    rewrite space_bs; [|constructor; [now left|auto]|now apply no_space_comment]. cbn [lift bindm].
    rewrite (comment_ok w _ Hw). cbn [bindm]. apply IH; auto. rewrite !app_length in Hn. pose proof (comment_length w Hw). lia.
Qed.

Lemma keyword_filler f : filler f -> forall t n, begins t -> length f < n ->
  keyword n (f ++ t) = match t with [] => Ok None | _ => let* x := lift (scan_name t) in Ok (Some x) end.
Proof.
  induction 1 as [|e t0 He Hf IH|w t0 Hw Hf IH|b e t0 Hb He Hf IH|b w t0 Hb Hw Hf IH]; intros t n Ht Hn; (destruct n as [|n]; [lia|]).
  - cbn [app keyword]. destruct Ht as [->|(c & r & -> & Hc)]; [reflexivity|]. cbn [at_eof].
    destruct (isvar_not c Hc) as (H1 & H2 & H3 & H4 & H5 & H6 & _). apply ceqb_neq in H1, H2, H3, H4, H5, H6. now rewrite H1, H5, H4, H3, H6.
  - rewrite <- app_assoc. rewrite app_length in Hn. destruct He as [-> | ->]; cbn [app keyword length] in *.
    + change (ceqb NL " ") with false. change (ceqb NL "#") with false. change (ceqb NL CR || ceqb NL NL) with true. cbv iota.
      cbn [newline]. change (ceqb NL CR) with false. change (ceqb NL NL) with true. cbn [lift bindm]. apply IH; auto. lia.
    + change (ceqb CR " ") with false. change (ceqb CR "#") with false. change (ceqb CR CR || ceqb CR NL) with true. cbv iota.
      cbn [newline]. change (ceqb CR CR) with true. change (ceqb NL NL) with true. cbn [lift bindm]. apply IH; auto. lia.
  - rewrite <- app_assoc. pose proof (comment_length w Hw) as L. pose proof (comment_ok w (t0 ++ t) Hw) as C. rewrite app_length in Hn.
    destruct (comment_head w Hw) as [w' ->]. cbn [app keyword] in *. change (ceqb "#" " ") with false. change (ceqb "#" "#") with true. cbv iota.
    rewrite C. cbn [bindm]. apply IH; auto. lia.
  - replace ((B " " ++ b ++ e ++ t0) ++ t) with (B " " ++ b ++ e ++ t0 ++ t) by (now rewrite <- !app_assoc).
    assert (S1 : space (B " " ++ b ++ e ++ t0 ++ t) = Some (true, e ++ t0 ++ t)).
    { rewrite (app_assoc (B " ")), space_bs; [reflexivity|constructor; [now left|auto]|now apply no_space_eol]. }
    rewrite !app_length in Hn. change (length (B " ")) with 1 in Hn. change (B " " ++ b ++ e ++ t0 ++ t) with (" "%char :: b ++ e ++ t0 ++ t) in *. cbn [keyword]. change (ceqb " " " ") with true. cbv iota.
    rewrite S1. cbn [lift bindm].
    assert (E : comment (e ++ t0 ++ t) = Ok None) by (destruct He as [-> | ->]; reflexivity). rewrite E. cbn [bindm].
    rewrite (newline_eol e _ He). cbn [lift bindm]. apply IH; auto. lia.
  - replace ((B " " ++ b ++ w ++ t0) ++ t) with (B " " ++ b ++ w ++ t0 ++ t) by (now rewrite <- !app_assoc).
    assert (S1 : space (B " " ++ b ++ w ++ t0 ++ t) = Some (true, w ++ t0 ++ t)).
    { rewrite (app_assoc (B " ")), space_bs; [reflexivity|constructor; [now left|auto]|now apply no_space_comment]. }
    rewrite !app_length in Hn. change (length (B " ")) with 1 in Hn. change (B " " ++ b ++ w ++ t0 ++ t) with (" "%char :: b ++ w ++ t0 ++ t) in *. cbn [keyword]. change (ceqb " " " ") with true. cbv iota.
    rewrite S1. cbn [lift bindm]. rewrite (comment_ok w _ Hw). cbn [bindm]. apply IH; auto. pose proof (comment_length w Hw). lia.
Qed.

(** ** Blocks *)
Lemma indent_more b m n : blanks b -> no_space m -> b <> [] -> (exists c t, m = c :: t /\ isvar c = true) ->
  scan_indent (S n) (b ++ m) = Ok (true, m).
Proof.
  intros Hb Hm Hne (c & t & -> & Hc). cbn [scan_indent]. rewrite (space_bs b _ Hb Hm). cbn [lift bindm].
  rewrite comment_none by (apply isvar_not in Hc; intuition). cbn [bindm]. destruct b as [|x b]; [congruence|]. cbn [nonempty].
  cbn [newline]. destruct (isvar_not c Hc) as (_ & _ & H3 & H4 & _). apply ceqb_neq in H3, H4. now rewrite H3, H4.
Qed.
Lemma indent_comment b w m n : blanks b -> comment_line w -> scan_indent (S n) (b ++ w ++ m) = scan_indent n m.
Proof.
  intros Hb Hw. cbn [scan_indent]. rewrite space_bs by (auto; now apply no_space_comment). cbn [lift bindm]. now rewrite (comment_ok w m Hw).
Qed.
Lemma scan_indent_fuel n : forall m l, length l < n -> length l < m -> scan_indent n l = scan_indent m l.
Proof.
  assert (SL : forall f any l a r, space_loop f any l = Some (a, r) -> length r <= length l \/ l = ["$"%char] /\ r = ["$"%char; "$"%char] \/ exists x, r = ["$"%char; "$"%char] /\ 2 <= length l /\ x = 0).
  { induction f as [|f IH]; intros any l a r E; [discriminate|]. cbn [space_loop] in E. destruct (singlespace l) as [[[|] r']|] eqn:S1; [| |discriminate].
    - apply IH in E. assert (L : length r' < length l).
      { destruct l as [|c l]; [discriminate|]. cbn [singlespace] in S1. destruct (ceqb c "$").
        - destruct (newline l) as [[[|] q]|] eqn:N; try discriminate. injection S1 as <-. destruct l as [|x l]; [discriminate|]. cbn [newline] in N.
          destruct (ceqb x CR); [destruct l as [|y l]; [discriminate|]; destruct (ceqb y NL); [|discriminate]|destruct (ceqb x NL); [|discriminate]]; injection N as <-; cbn; lia.
        - destruct (ceqb c " "); [|discriminate]. injection S1 as <-. cbn. lia. }
      destruct E as [E|[[-> ->]|(x & -> & E & _)]].
      + left. lia.
      + right. right. exists 0. cbn in *. repeat split; lia.
      + right. right. exists 0. repeat split; lia.
    - injection E as <- <-. destruct l as [|c l]; [injection S1 as <-; left; lia|]. cbn [singlespace] in S1. destruct (ceqb_spec c "$"%char) as [->|].
      + destruct (newline l) as [[[|] q]|]; try discriminate. injection S1 as <-. destruct l; [right; left; auto|left; lia].
      + destruct (ceqb c " "); [discriminate|]. injection S1 as <-. left. lia. }
  assert (CL : forall l r, comment_loop l = Ok r -> length r < length l).
  { induction l as [|c l IH]; intros r E; [discriminate|]. cbn [comment_loop] in E. destruct (newline (c :: l)) as [[[|] q]|] eqn:N; [| |discriminate].
    - injection E as <-. cbn [newline] in N. destruct (ceqb c CR); [destruct l as [|y l]; [discriminate|]; destruct (ceqb y NL); [|discriminate]|destruct (ceqb c NL); [|discriminate]]; injection N as <-; cbn; lia.
    - apply IH in E. cbn [length]. lia. }
  induction n as [|n IH]; intros m l Hn Hm; [lia|]. destruct m as [|m]; [lia|]. cbn [scan_indent].
  destruct (space l) as [[ind r]|] eqn:E; [|reflexivity]. cbn [lift bindm]. apply SL in E.
  destruct (comment r) as [[q|]| | | |] eqn:C; cbn [bindm]; try reflexivity. apply IH.
  all: destruct r as [|c r]; [discriminate|]; cbn [comment] in C; destruct (ceqb_spec c "#"%char) as [->|]; [|discriminate];
    destruct (comment_loop r) as [z| | | |] eqn:CC; try discriminate; injection C as <-; apply CL in CC;
    destruct E as [E|[[_ E]|(x & E & _)]]; [cbn [length] in E; lia|discriminate|discriminate].
Qed.

Lemma lets_block xs w : block xs w -> forall f t n acc, filler f -> begins t -> length (w ++ f ++ t) < n ->
  exists f', filler f' /\ lets n (w ++ f ++ t) acc = Ok (acc ++ given xs, f' ++ t).
Proof.
  induction 1 as [|b x w xs t0 Hb Hne Hx Ht IH|b w xs t0 Hb Hw Ht IH]; intros f t n acc Hf Hbg Hn; (destruct n as [|n]; [lia|]).
  - cbn [app given map] in *. destruct (indent_filler f Hf t (S (length (f ++ t))) Hbg) as (f' & Hf' & E); [rewrite app_length; lia|].
    exists f'. split; [auto|]. cbn [lets]. rewrite E. cbn [bindm]. now rewrite app_nil_r.
  - destruct x as [k v]. destruct (let_line_ok k v w (t0 ++ f ++ t) Hx) as (m & E1 & E2). destruct (let_line_head _ w Hx) as (c & w' & Ew & Hc).
    cbn [lets]. rewrite <- !app_assoc. rewrite indent_more; auto.
    + cbn [bindm]. rewrite E1. cbn [lift bindm]. rewrite E2. cbn [bindm].
      destruct (IH f t n (acc ++ [(k, pieces_of v)]) Hf Hbg) as (f' & Hf' & E).
      * rewrite <- !app_assoc in Hn. rewrite app_length in Hn. rewrite (app_length w) in Hn. rewrite Ew in Hn. cbn [length] in Hn. lia.
      * exists f'. split; [auto|]. rewrite E. cbn [given map fst snd]. now rewrite <- app_assoc.
    + rewrite Ew. destruct (isvar_not c Hc) as (? & ? & _). now apply no_space_head.
    + rewrite Ew. cbn [app]. eauto.
  - destruct (IH f t (S n) acc Hf Hbg) as (f' & Hf' & E); [rewrite <- !app_assoc in Hn; rewrite !app_length in *; lia|].
    exists f'. split; [auto|]. rewrite <- E. cbn [lets]. rewrite <- !app_assoc. rewrite indent_comment by auto.
    rewrite (scan_indent_fuel _ (S (length (t0 ++ f ++ t)))); [reflexivity| |lia].
    rewrite !app_length. pose proof (comment_length w Hw). lia.
Qed.

(** ** Build lines *)
Lemma scan_pipe_no one two r : (forall c t, r = c :: t -> c <> "|"%char) -> scan_pipe one two r = Some (0, r).
Proof. intros H. apply scan_pipe0. destruct r as [|c t]; [auto|]. now apply (H c t). Qed.
Lemma written_path_head as' w c t : written true as' w -> w = c :: t -> c <> "|"%char.
Proof.
  intros W E. destruct W as [|c' as' t' Hc _|c' as' t' Hc _|v as' t' Hv _|v as' t' Hv Hs _ _|e b as' t' He Hbs Ht _ _]; try discriminate.
  - injection E as <- _. intros ->. discriminate Hc.
  - change (B "$") with ["$"%char] in E. injection E as <- _. discriminate.
  - change (B "${") with ["$"%char; "{"%char] in E. injection E as <- _. discriminate.
  - change (B "$") with ["$"%char] in E. injection E as <- _. discriminate.
  - change (B "$") with ["$"%char] in E. injection E as <- _. discriminate.
Qed.
Lemma bar_next b ps w r : blanks b -> paths ps w -> (b = [] -> ps <> []) -> forall c t, b ++ w ++ r = c :: t -> c <> "|"%char.
Proof.
  intros Hb Hp Hn c t E. destruct (blanks_head b Hb) as [->|(x & b' & -> & [-> | ->])]; cbn [app] in E.
  - destruct Hp as [|p w' b' ps' t' Hne Hw _ _ _]; [now destruct (Hn eq_refl)|]. rewrite <- app_assoc in E.
    pose proof (written_nonempty true p w' Hw Hne) as Hw'. destruct w' as [|x w']; [congruence|]. injection E as <- _. now apply (written_path_head p (x :: w') x w').
  - injection E as <- _. discriminate.
  - injection E as <- _. discriminate.
Qed.
Lemma pipe_one two b ps w r : blanks b -> paths ps w -> (b = [] -> ps <> []) -> ends r ->
  scan_pipe true two (B "|" ++ b ++ w ++ r) = Some (1, w ++ r).
Proof.
  intros Hb Hp Hn Hr. pose proof (bar_next b ps w r Hb Hp Hn) as Hx. pose proof (space_bs b (w ++ r) Hb (paths_space ps w r Hp Hr)) as Hs.
  change (B "|") with ["|"%char]. cbn [app scan_pipe]. rewrite ceqb_refl. destruct (b ++ w ++ r) as [|c t] eqn:E.
  - destruct Hr as (c & t & -> & _). destruct b, w; discriminate.
  - rewrite (proj2 (ceqb_neq c "|"%char) (Hx c t eq_refl)). now rewrite Hs.
Qed.
Lemma pipe_two one b ps w r : blanks b -> paths ps w -> ends r -> scan_pipe one true (B "||" ++ b ++ w ++ r) = Some (2, w ++ r).
Proof.
  intros Hb Hp Hr. change (B "||") with ["|"%char; "|"%char]. cbn [app scan_pipe]. rewrite !ceqb_refl.
  now rewrite (space_bs b (w ++ r) Hb (paths_space ps w r Hp Hr)).
Qed.
Lemma section_ends m ps w r : (exists t, m = "|"%char :: t) -> section m ps w -> ends r -> ends (w ++ r).
Proof. intros (t & ->) [|b ps' w' _ _ _] Hr; [exact Hr|]. eexists _, _. split; [reflexivity|]. auto. Qed.

Lemma parse_edge_ok outs wo outimp wo' b' rule b'' ins wi imp wi' ord wi'' e r :
  outs <> [] -> paths outs wo -> section (B "|") outimp wo' -> blanks b' -> a_name rule -> blanks b'' -> (b'' = [] -> ins = []) ->
  paths ins wi -> section (B "|") imp wi' -> section (B "||") ord wi'' -> eol e ->
  parse_edge (wo ++ wo' ++ B ":" ++ b' ++ rule ++ b'' ++ wi ++ wi' ++ wi'' ++ e ++ r) =
    Some ({| e_outs := map pieces_of outs; e_outimp := map pieces_of outimp; e_rule := rule;
             e_ins := map pieces_of ins; e_imp := map pieces_of imp; e_ord := map pieces_of ord |}, r).
Proof.
  intros Hne Ho Hoi Hb' Hru Hb'' Hi0 Hi Him Hor He. unfold parse_edge.
  assert (C : forall t, ends (B ":" ++ t)) by (intros t; eexists _, _; split; [reflexivity|]; auto).
  assert (Er : ends (e ++ r)) by (now apply ends_eol).
  assert (Eo : ends (wi'' ++ e ++ r)) by (apply (section_ends (B "||") ord); eauto; unfold B; cbn; eauto).
  assert (Ei : ends (wi' ++ wi'' ++ e ++ r)) by (apply (section_ends (B "|") imp); eauto; unfold B; cbn; eauto).
  set (T := b' ++ rule ++ b'' ++ wi ++ wi' ++ wi'' ++ e ++ r).
  rewrite (scan_paths_ok outs wo); [|auto|apply (section_ends (B "|") outimp); auto; unfold B; cbn; eauto].
  assert (E1 : exists p l, scan_pipe true false (wo' ++ B ":" ++ T) = Some (p, l) /\
    (if p =? 1 then scan_paths l else Some ([], l)) = Some (map pieces_of outimp, B ":" ++ T)).
  { destruct Hoi as [|b ps w Hb Hp Hn].
    - exists 0, (B ":" ++ T). split; [|reflexivity]. cbn [app]. apply scan_pipe_no. intros c t E. injection E as <- _. discriminate.
    - exists 1, (w ++ B ":" ++ T). rewrite <- !app_assoc. split; [now apply (pipe_one false b ps)|]. cbn [Nat.eqb]. now apply scan_paths_ok. }
  destruct E1 as (p & l & -> & ->).
  destruct (map pieces_of outs ++ map pieces_of outimp) as [|x y] eqn:Ex; [destruct outs; [congruence|discriminate]|]. clear x y Ex.
  unfold T. change (B ":") with [":"%char]. rewrite scan_char_bs; [|auto|now apply no_space_name].
  rewrite scan_name_bs; [|auto|auto|now apply (paths_space ins)|].
  2:{ intros Hz c t E. rewrite (Hi0 Hz) in Hi. inversion Hi; subst. cbn [app] in E. destruct Ei as (c' & t' & Ec & Hc). rewrite Ec in E. injection E as <- _.
      destruct Hc as [->|[->|[->| ->]]]; reflexivity. }
  rewrite (scan_paths_ok ins wi _ Hi Ei).
  assert (E3 : forall one, exists p l, scan_pipe one true (wi'' ++ e ++ r) = Some (p, l) /\ p <> 1 /\
    (if p =? 2 then scan_paths l else Some ([], l)) = Some (map pieces_of ord, e ++ r)).
  { intros one. destruct Hor as [|b ps w Hb Hp Hn].
    - exists 0, (e ++ r). split; [|auto]. cbn [app]. apply scan_pipe_no. intros c t E. destruct He as [-> | ->]; injection E as <- _; discriminate.
    - exists 2, (w ++ e ++ r). rewrite <- !app_assoc. split; [now apply (pipe_two one b ps)|]. split; [discriminate|]. cbn [Nat.eqb]. now apply scan_paths_ok. }
  assert (E2 : exists p l, scan_pipe true true (wi' ++ wi'' ++ e ++ r) = Some (p, l) /\ exists q m,
    (if p =? 1 then do (imp, l) <- scan_paths l; do (p, l) <- scan_pipe false true l; Some (imp, p, l) else Some ([], p, l)) = Some (map pieces_of imp, q, m) /\
    (if q =? 2 then scan_paths m else Some ([], m)) = Some (map pieces_of ord, e ++ r)).
  { destruct Him as [|b ps w Hb Hp Hn].
    - destruct (E3 true) as (p2 & l2 & P1 & P2 & P3). exists p2, l2. split; [exact P1|]. exists p2, l2. apply Nat.eqb_neq in P2. rewrite P2. auto.
    - exists 1, (w ++ wi'' ++ e ++ r). rewrite <- !app_assoc. split; [now apply (pipe_one true b ps)|]. cbn [Nat.eqb]. rewrite (scan_paths_ok ps w) by auto.
      destruct (E3 false) as (p2 & l2 & P1 & P2 & P3). rewrite P1. eauto. }
  destruct E2 as (p2 & l2 & -> & q & m & -> & ->). rewrite scan_newline_eol by auto. reflexivity.
Qed.
