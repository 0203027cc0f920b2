From Verif Require Import Base M_Escape S_Escape.
Local Arguments B _ : simpl never.
Local Arguments mem_char : simpl never.

(** ** join_args *)
Fixpoint all_some {A} (l : list (option A)) : option (list A) :=
  match l with
  | [] => Some []
  | None :: _ => None
  | Some x :: l' => option_map (cons x) (all_some l')
  end.
Lemma all_some_length {A} (l : list (option A)) : forall es, all_some l = Some es -> length es = length l.
Proof.
  induction l as [|[a|] l IH]; intros es E; cbn [all_some] in E; [inversion E; reflexivity| |discriminate].
  destruct (all_some l); [|discriminate]. inversion E; subst. simpl. f_equal. auto.
Qed.
Lemma join_args_loop_spec esc l : forall i acc, join_args_loop esc (i + length l) i acc l =
  option_map (fun es => acc ++ joinb (B " ") es) (all_some (map esc l)).
Proof.
  induction l as [|s l IH]; intros i acc; cbn [join_args_loop map all_some option_map].
  - cbn [joinb]. now rewrite app_nil_r.
  - destruct (esc s) as [e|]; [|reflexivity]. cbn [length].
    replace (i + S (length l)) with (i + 1 + length l) by lia. rewrite IH.
    destruct (all_some (map esc l)) as [es|] eqn:E; [|reflexivity]. cbn [option_map]. f_equal.
    assert (L : length es = length l) by (rewrite (all_some_length _ _ E); apply map_length).
    destruct l as [|s' l'], es as [|e' es']; simpl in L; try lia.
    + cbn [joinb]. destruct (Nat.ltb_spec i (i + 1 + length (@nil bytes) - 1)); [simpl in *; lia|]. now rewrite !app_nil_r.
    + destruct (Nat.ltb_spec i (i + 1 + length (s' :: l') - 1)); [|simpl in *; lia].
      change (joinb (B " ") (e :: e' :: es')) with (e ++ B " " ++ joinb (B " ") (e' :: es')). now rewrite <- !app_assoc.
Qed.
Lemma join_args_spec esc l : join_args esc l = option_map (joinb (B " ")) (all_some (map esc l)).
Proof.
  unfold join_args. change (length l) with (0 + length l) at 1. rewrite join_args_loop_spec.
  destruct (all_some _); reflexivity.
Qed.
Lemma all_some_map {A B} (f : A -> option B) (g : A -> B) l : (forall x, In x l -> f x = Some (g x)) -> all_some (map f l) = Some (map g l).
Proof. induction l as [|a l IH]; intros H; [reflexivity|]. cbn [map all_some]. rewrite (H a) by now left. rewrite IH; [reflexivity|]. intros x Hx; apply H; now right. Qed.

(** ** ninja escaping as a total function *)
Definition DOLLAR : ascii := "$"%char.
Fixpoint nesc (s : bytes) : bytes :=
  match s with [] => [] | c :: s' => (if mem_char c (B " :$") then [DOLLAR; c] else [c]) ++ nesc s' end.
Definition path_char (c : ascii) : bool := negb (mem_char c [NUL; NL; CR; "|"%char; EOFB]).
Definition path_ok (s : bytes) : Prop := s <> [] /\ forallb path_char s = true.

Lemma path_char_inv c : path_char c = true -> c <> NUL /\ c <> NL /\ c <> CR /\ c <> "|"%char /\ c <> EOFB.
Proof. intros H. repeat split; intros ->; discriminate H. Qed.
Lemma ninja_escape_nesc s : forallb path_char s = true -> ninja_escape s = Some (nesc s).
Proof.
  unfold ninja_escape. induction s as [|c s IH]; intros H; [reflexivity|]. cbn [forallb] in H. apply andb_true_iff in H as [H1 H2].
  cbn [simple_escape nesc]. rewrite (IH H2). destruct (mem_char c (B " :$")); [reflexivity|].
  destruct (path_char_inv c H1) as (_ & Hn & _). apply ceqb_neq in Hn. rewrite Hn. reflexivity.
Qed.
Lemma nesc_length s : length s <= length (nesc s).
Proof. induction s as [|c s IH]; [simpl; lia|]. cbn [nesc]. rewrite app_length. destruct (mem_char c _); simpl; lia. Qed.
Lemma nesc_nonempty s : s <> [] -> nesc s <> [].
Proof. destruct s as [|c s]; [congruence|]. cbn [nesc]. destruct (mem_char c _); discriminate. Qed.

(** ** scanning it back *)
Lemma mem_nesc c : mem_char c (B " :$") = ceqb c " "%char || (ceqb c ":"%char || (ceqb c "$"%char || false)).
Proof. reflexivity. Qed.

Lemma scan_loop_nesc s : forall f tail buf, forallb path_char s = true ->
  scan_loop (length s + f) true (nesc s ++ tail) buf [] = scan_loop f true tail (buf ++ s) [].
Proof.
  induction s as [|c s IH]; intros f tail buf H.
  - cbn [length Nat.add nesc app]. now rewrite app_nil_r.
  - cbn [forallb] in H. apply andb_true_iff in H as [H1 H2]. destruct (path_char_inv c H1) as (C0 & C1 & C2 & C3 & C4).
    apply ceqb_neq in C1, C2, C3, C4. cbn [length Nat.add nesc]. rewrite <- app_assoc.
    destruct (mem_char c (B " :$")) eqn:E.
    + cbn [app scan_loop at_eof]. change (ceqb DOLLAR EOFB) with false. change (ceqb DOLLAR "$") with true. cbv iota.
      unfold escape. cbn [at_eof]. rewrite C4.
      assert (E' : ceqb c "$" || ceqb c " " || ceqb c ":" = true).
      { rewrite mem_nesc in E. destruct (ceqb c " "), (ceqb c ":"), (ceqb c "$"); simpl in *; congruence. }
      rewrite E'. rewrite IH by auto. now rewrite <- app_assoc.
    + cbn [app scan_loop at_eof]. rewrite C4, C1, C2, C3. rewrite mem_nesc in E.
      destruct (ceqb c " "); [discriminate|]. destruct (ceqb c ":"); [discriminate|]. destruct (ceqb c "$"); [discriminate|].
      cbn [orb andb]. rewrite IH by auto. now rewrite <- app_assoc.
Qed.

(** text at which no blank is skipped *)
Definition no_space (l : bytes) : Prop := match l with
  | [] => True
  | c :: r => c <> " "%char /\ (c = "$"%char -> exists x r', r = x :: r' /\ x <> NL /\ x <> CR) end.
Lemma singlespace_no l : no_space l -> singlespace l = Some (false, l).
Proof.
  destruct l as [|c r]; [reflexivity|]. intros [H1 H2]. cbn [singlespace]. destruct (ceqb_spec c "$"%char) as [->|N].
  - destruct (H2 eq_refl) as (x & r' & -> & X1 & X2). cbn [newline]. apply ceqb_neq in X1, X2. now rewrite X1, X2.
  - apply ceqb_neq in H1. now rewrite H1.
Qed.
Lemma space_loop_no f any l : no_space l -> space_loop (S f) any l = Some (any, l).
Proof. intros H. cbn [space_loop]. now rewrite (singlespace_no l H). Qed.
Lemma space_loop_blanks n : forall f any l, no_space l -> n < f ->
  exists any', space_loop f any (repeat " "%char n ++ l) = Some (any', l).
Proof.
  induction n as [|n IH]; intros f any l H Hf; (destruct f as [|f]; [lia|]).
  - cbn [repeat app]. rewrite space_loop_no by auto. eauto.
  - cbn [repeat app space_loop singlespace]. change (ceqb " " "$") with false. rewrite ceqb_refl. apply IH; auto. lia.
Qed.
Lemma space_blanks n l : no_space l -> exists any, space (repeat " "%char n ++ l) = Some (any, l).
Proof. intros H. apply space_loop_blanks; auto. rewrite app_length, repeat_length. lia. Qed.

Lemma no_space_nesc s tail : path_ok s -> no_space (nesc s ++ tail).
Proof.
  intros [Hne H]. destruct s as [|c s]; [congruence|]. cbn [forallb] in H. apply andb_true_iff in H as [H1 H2].
  destruct (path_char_inv c H1) as (C0 & C1 & C2 & C3 & C4). cbn [nesc]. rewrite <- app_assoc.
  destruct (mem_char c (B " :$")) eqn:E; cbn [app no_space].
  - split; [discriminate|]. intros _. eauto.
  - rewrite mem_nesc in E. destruct (ceqb_spec c " "%char); [discriminate|]. split; [auto|].
    destruct (ceqb_spec c "$"%char); [|congruence]. destruct (ceqb c ":"); discriminate.
Qed.

(** where a path ends *)
Definition stops_path (l : bytes) : Prop := match l with [] => True | c :: _ => c = ":"%char \/ c = "|"%char \/ c = " "%char \/ c = NL end.
Lemma scan_loop_stop f l buf ps : stops_path l -> scan_loop (S f) true l buf ps = Some (flush buf ps, l).
Proof. destruct l as [|c r]; [reflexivity|]. intros [->|[->|[->| ->]]]; reflexivity. Qed.

Lemma scan_string_path s n tail : path_ok s -> no_space tail -> stops_path (repeat " "%char n ++ tail) ->
  scan_string true (nesc s ++ repeat " "%char n ++ tail) = Some ([PStr s], tail).
Proof.
  intros [Hne Hs] Hns Hst. unfold scan_string.
  set (l := nesc s ++ repeat " "%char n ++ tail).
  assert (L : exists f, S (length l) = length s + S f).
  { exists (length l - length s). pose proof (nesc_length s). unfold l. rewrite app_length. lia. }
  destruct L as [f ->]. unfold l. rewrite scan_loop_nesc by auto. rewrite scan_loop_stop by auto.
  cbn [app]. destruct (space_blanks n tail Hns) as [any ->]. destruct s; [congruence|]. reflexivity.
Qed.

(** the end of a list of paths *)
Definition ends_paths (l : bytes) : Prop := match l with [] => True | c :: _ => c = ":"%char \/ c = "|"%char \/ c = NL end.
Lemma ends_no_space l : ends_paths l -> no_space l.
Proof. destruct l as [|c r]; [auto|]. intros [->|[->| ->]]; simpl; (split; [discriminate|]); discriminate. Qed.
Lemma scan_string_end l : ends_paths l -> scan_string true l = Some ([], l).
Proof.
  intros H. unfold scan_string. rewrite scan_loop_stop by (destruct l as [|c r]; [exact I|]; simpl in *; intuition).
  unfold space. rewrite space_loop_no by (now apply ends_no_space). reflexivity.
Qed.

Definition words (l : list bytes) : bytes := joinb (B " ") (map nesc l).
Lemma scan_paths_loop_words l : forall f n tail acc, Forall path_ok l -> ends_paths tail ->
  (l = [] -> n = 0) -> stops_path (repeat " "%char n ++ tail) -> length l < f ->
  scan_paths_loop f (words l ++ repeat " "%char n ++ tail) acc = Some (acc ++ map (fun s => [PStr s]) l, tail).
Proof.
  induction l as [|s l IH]; intros f n tail acc Hok Ht Hn Hst Hf; (destruct f as [|f]; [simpl in Hf; lia|]).
  - rewrite (Hn eq_refl). cbn [words map joinb repeat app scan_paths_loop]. unfold words. cbn [map joinb app].
    rewrite (scan_string_end tail Ht). now rewrite app_nil_r.
  - inversion Hok as [|? ? Hs Hl]; subst. cbn [scan_paths_loop]. unfold words. cbn [map].
    destruct l as [|s' l'].
    + cbn [map joinb]. rewrite scan_string_path; [|auto|now apply ends_no_space|auto].
      destruct f as [|f]; [simpl in Hf; lia|]. cbn [scan_paths_loop]. rewrite (scan_string_end tail Ht). reflexivity.
    + change (joinb (B " ") (nesc s :: map nesc (s' :: l'))) with (nesc s ++ B " " ++ joinb (B " ") (map nesc (s' :: l'))).
      rewrite <- !app_assoc. change (B " ") with (repeat " "%char 1) at 1.
      assert (Hs' : path_ok s') by (now inversion Hl).
      rewrite scan_string_path; [|auto| |cbn; auto].
      * fold (words (s' :: l')). rewrite IH; auto; [|discriminate|simpl in *; lia].
        cbn [map]. now rewrite <- app_assoc.
      * cbn [map]. destruct l' as [|s2 l2].
        -- cbn [map joinb]. now apply no_space_nesc.
        -- change (joinb (B " ") (nesc s' :: map nesc (s2 :: l2))) with (nesc s' ++ B " " ++ joinb (B " ") (map nesc (s2 :: l2))).
           rewrite <- app_assoc. now apply no_space_nesc.
Qed.
Lemma words_length l : Forall path_ok l -> length l <= length (words l).
Proof.
  unfold words. induction l as [|s l IH]; intros H; [simpl; lia|]. inversion H as [|? ? [Hne _] Hl]; subst. specialize (IH Hl).
  assert (1 <= length (nesc s)) by (pose proof (nesc_length s); destruct s; [congruence|simpl in *; lia]).
  cbn [map]. destruct l as [|s' l'].
  - cbn [map joinb length]. lia.
  - change (joinb (B " ") (nesc s :: map nesc (s' :: l'))) with (nesc s ++ B " " ++ joinb (B " ") (map nesc (s' :: l'))).
    rewrite !app_length. simpl length in *. lia.
Qed.
Lemma scan_paths_words l n tail : Forall path_ok l -> ends_paths tail -> (l = [] -> n = 0) -> stops_path (repeat " "%char n ++ tail) ->
  scan_paths (words l ++ repeat " "%char n ++ tail) = Some (map (fun s => [PStr s]) l, tail).
Proof.
  intros. unfold scan_paths. rewrite scan_paths_loop_words; auto. rewrite app_length. pose proof (words_length l H). lia.
Qed.
Lemma join_args_ninja_words l : Forall path_ok l -> join_args_ninja l = Some (words l).
Proof.
  intros H. unfold join_args_ninja. rewrite join_args_spec. rewrite all_some_map with (g := nesc); [reflexivity|].
  intros x Hx. apply ninja_escape_nesc. rewrite Forall_forall in H. now apply H.
Qed.
Lemma no_space_words l tail : Forall path_ok l -> l <> [] -> no_space (words l ++ tail).
Proof.
  intros H Hne. destruct l as [|s l]; [congruence|]. inversion H; subst. unfold words. cbn [map]. destruct l as [|s' l'].
  - cbn [map joinb]. now apply no_space_nesc.
  - change (joinb (B " ") (nesc s :: map nesc (s' :: l'))) with (nesc s ++ B " " ++ joinb (B " ") (map nesc (s' :: l'))).
    rewrite <- app_assoc. now apply no_space_nesc.
Qed.

(** ** names *)
Definition rule_ok (r : bytes) : Prop := r <> [] /\ forallb isvar r = true.
Lemma span_all (p : ascii -> bool) a b : forallb p a = true -> match b with [] => True | c :: _ => p c = false end -> span p (a ++ b) = (a, b).
Proof.
  induction a as [|c a IH]; intros Ha Hb.
  - cbn [app]. destruct b as [|c b]; cbn [span]; [reflexivity|]. now rewrite Hb.
  - cbn [forallb] in Ha. apply andb_true_iff in Ha as [H1 H2]. cbn [app span]. rewrite H1, (IH H2 Hb). reflexivity.
Qed.
Lemma scan_name_rule r n tail : rule_ok r -> no_space tail -> (n = 0 -> match tail with [] => True | c :: _ => isvar c = false end) ->
  scan_name (r ++ repeat " "%char n ++ tail) = Some (r, tail).
Proof.
  intros [Hne Hr] Ht Hn. unfold scan_name.
  rewrite span_all; [|auto|].
  - destruct (space_blanks n tail Ht) as [any ->]. destruct r; [congruence|]. reflexivity.
  - destruct n; [exact (Hn eq_refl)|exact eq_refl].
Qed.

(** ** a whole build statement *)
Definition lits (l : list bytes) : list (list part) := map (fun s => [PStr s]) l.
Definition opt (p : option (list bytes)) : list bytes := match p with Some l => l | None => [] end.

Lemma ends_head l : ends_paths l -> stops_path l.
Proof. destruct l as [|c r]; [auto|]. simpl. intuition. Qed.
(** a list of paths, then blanks, then what ends it; also when the list is empty *)
Lemma scan_paths_any l n tail : Forall path_ok l -> ends_paths tail ->
  stops_path (repeat " "%char n ++ tail) -> (l = [] -> n = 0) ->
  scan_paths (words l ++ repeat " "%char n ++ tail) = Some (lits l, tail).
Proof. intros. now apply scan_paths_words. Qed.
Lemma stops_blanks n tail : ends_paths tail -> stops_path (repeat " "%char n ++ tail).
Proof. intros H. destruct n; [now apply ends_head|]. simpl. auto. Qed.

Lemma scan_pipe1 two l n : no_space l -> (n = 0 -> match l with c :: _ => c <> "|"%char | [] => True end) ->
  scan_pipe true two ("|"%char :: repeat " "%char n ++ l) = Some (1, l).
Proof.
  intros H Hd. cbn [scan_pipe]. rewrite ceqb_refl. destruct (space_blanks n l H) as [any E].
  destruct n as [|n].
  - cbn [repeat app] in *. specialize (Hd eq_refl). destruct l as [|c r]; [reflexivity|]. apply ceqb_neq in Hd. now rewrite Hd, E.
  - cbn [repeat app] in *. change (ceqb " " "|") with false. cbv iota. now rewrite E.
Qed.
Lemma scan_pipe2 one l n : no_space l -> scan_pipe one true ("|"%char :: "|"%char :: repeat " "%char n ++ l) = Some (2, l).
Proof. intros H. cbn [scan_pipe]. rewrite !ceqb_refl. destruct (space_blanks n l H) as [any ->]. reflexivity. Qed.
Lemma scan_pipe0 one two l : match l with c :: _ => c <> "|"%char | [] => True end -> scan_pipe one two l = Some (0, l).
Proof. destruct l as [|c r]; [reflexivity|]. intros H. cbn [scan_pipe]. apply ceqb_neq in H. now rewrite H. Qed.

Lemma nesc_head_not_pipe s tail : path_ok s -> match nesc s ++ tail with c :: _ => c <> "|"%char | [] => True end.
Proof.
  intros [Hne H]. destruct s as [|c s]; [congruence|]. cbn [forallb] in H. apply andb_true_iff in H as [H1 H2].
  destruct (path_char_inv c H1) as (C0 & C1 & C2 & C3 & C4). cbn [nesc]. destruct (mem_char c _); cbn [app]; [discriminate|auto].
Qed.
Lemma words_head_not_pipe l tail : Forall path_ok l -> l <> [] -> match words l ++ tail with c :: _ => c <> "|"%char | [] => True end.
Proof.
  intros H Hne. destruct l as [|s l]; [congruence|]. inversion H; subst. unfold words. cbn [map]. destruct l as [|s' l'].
  - cbn [map joinb]. now apply nesc_head_not_pipe.
  - change (joinb (B " ") (nesc s :: map nesc (s' :: l'))) with (nesc s ++ B " " ++ joinb (B " ") (map nesc (s' :: l'))).
    rewrite <- app_assoc. now apply nesc_head_not_pipe.
Qed.

Lemma parse_edge_written outs rule ins imp ord text rest :
  outs <> [] -> Forall path_ok outs -> Forall path_ok ins -> Forall path_ok (opt imp) -> Forall path_ok (opt ord) -> rule_ok rule ->
  write_edge outs rule ins imp ord = Some text ->
  exists body, scan_keyword (text ++ rest) = Some (B "build", body) /\
    parse_edge body = Some ({| e_outs := lits outs; e_outimp := []; e_rule := rule; e_ins := lits ins; e_imp := lits (opt imp); e_ord := lits (opt ord) |}, rest).
Proof.
  intros Hne Ho Hi Him Hor Hr Hw. unfold write_edge in Hw.
  rewrite (join_args_ninja_words outs Ho), (join_args_ninja_words ins Hi) in Hw.
  set (impt := match imp with None => [] | Some l => B " | " ++ words l end).
  set (ordt := match ord with None => [] | Some l => B " || " ++ words l end).
  assert (Ei : (match imp with None => Some [] | Some l => option_map (app (B " | ")) (join_args_ninja l) end) = Some impt).
  { destruct imp as [l|]; [|reflexivity]. rewrite (join_args_ninja_words l Him). reflexivity. }
  assert (Eo : (match ord with None => Some [] | Some l => option_map (app (B " || ")) (join_args_ninja l) end) = Some ordt).
  { destruct ord as [l|]; [|reflexivity]. rewrite (join_args_ninja_words l Hor). reflexivity. }
  rewrite Ei, Eo in Hw.
  apply (f_equal (fun o => match o with Some x => x | None => [] end)) in Hw. cbv beta iota in Hw. subst text.
  exists (words outs ++ B ": " ++ rule ++ B " " ++ words ins ++ impt ++ ordt ++ NL :: rest).
  split.
  - unfold scan_keyword.
    replace ((B "build " ++ words outs ++ B ": " ++ rule ++ B " " ++ words ins ++ impt ++ ordt ++ [NL]) ++ rest)
      with (B "build" ++ repeat " "%char 1 ++ words outs ++ B ": " ++ rule ++ B " " ++ words ins ++ impt ++ ordt ++ NL :: rest)
      by (rewrite <- !app_assoc; reflexivity).
    apply scan_name_rule; [split; [discriminate|reflexivity]| |discriminate]. now apply no_space_words.
  - (* the part after the inputs *)
    set (T := impt ++ ordt ++ NL :: rest).
    assert (HT : exists n t, T = repeat " "%char n ++ t /\ ends_paths t /\
      (do (p, l) <- scan_pipe true true t;
       do (imp', p, l) <- (if p =? 1 then do (imp', l) <- scan_paths l; do (p, l) <- scan_pipe false true l; Some (imp', p, l) else Some ([], p, l));
       do (ord', l) <- (if p =? 2 then scan_paths l else Some ([], l));
       do l <- scan_newline l; Some (imp', ord', l)) = Some (lits (opt imp), lits (opt ord), rest)).
    { assert (HO : exists n t, ordt ++ NL :: rest = repeat " "%char n ++ t /\ ends_paths t /\
        forall one, (do (p, l) <- scan_pipe one true t; do (ord', l) <- (if p =? 2 then scan_paths l else Some ([], l)); do l <- scan_newline l; Some (p, ord', l))
          = Some (match ord with None => 0 | Some _ => 2 end, lits (opt ord), rest)).
      { unfold ordt. destruct ord as [o|].
        - exists 1, ("|"%char :: "|"%char :: repeat " "%char 1 ++ words o ++ NL :: rest).
          split; [rewrite <- app_assoc; reflexivity|]. split; [simpl; auto|]. intros one.
          rewrite scan_pipe2.
          + cbn [Nat.eqb]. change (words o ++ NL :: rest) with (words o ++ repeat " "%char 0 ++ NL :: rest).
            rewrite scan_paths_any; [|auto|simpl; auto|simpl; auto|auto]. reflexivity.
          + destruct o as [|s o]; [|apply no_space_words; [auto|discriminate]]. unfold words. cbn. split; discriminate.
        - exists 0, (NL :: rest). split; [reflexivity|]. split; [simpl; auto|]. intros one. rewrite scan_pipe0 by discriminate. reflexivity. }
      destruct HO as (n & t & Et & Ht & HO). unfold T. rewrite Et. unfold impt. destruct imp as [m|].
      - destruct m as [|s m].
        + (* " | " with nothing behind it: the blanks run on *)
          exists 1, ("|"%char :: repeat " "%char (S n) ++ t). split; [reflexivity|]. split; [simpl; auto|].
          rewrite scan_pipe1; [|now apply ends_no_space|].
          * cbn [Nat.eqb]. pose proof (scan_paths_any [] 0 t (Forall_nil _) Ht (ends_head t Ht) (fun _ => eq_refl)) as Hp. cbn [repeat app] in Hp.
            change (words [] ++ t) with t in Hp. rewrite Hp. specialize (HO false).
            destruct (scan_pipe false true t) as [[p l]|]; [|discriminate HO].
            destruct (if p =? 2 then scan_paths l else Some ([], l)) as [[o' l']|]; [|discriminate HO].
            destruct (scan_newline l') as [l2|]; [|discriminate HO].
            inversion HO; subst. reflexivity.
          * discriminate.
        + exists 1, ("|"%char :: repeat " "%char 1 ++ words (s :: m) ++ repeat " "%char n ++ t). split; [rewrite <- app_assoc; reflexivity|].
          split; [simpl; auto|]. rewrite scan_pipe1; [|apply no_space_words; [auto|discriminate]|intros; apply words_head_not_pipe; [auto|discriminate]].
          cbn [Nat.eqb]. rewrite scan_paths_any; [|auto|auto|now apply stops_blanks|discriminate]. specialize (HO false).
          destruct (scan_pipe false true t) as [[p l]|]; [|discriminate HO].
          destruct (if p =? 2 then scan_paths l else Some ([], l)) as [[o' l']|]; [|discriminate HO].
          destruct (scan_newline l') as [l2|]; [|discriminate HO].
          inversion HO; subst. reflexivity.
      - exists n, t. split; [reflexivity|]. split; [exact Ht|]. specialize (HO true).
        destruct (scan_pipe true true t) as [[p l]|]; [|discriminate HO].
        assert (Hp : p <> 1).
        { destruct (if p =? 2 then scan_paths l else Some ([], l)) as [[o' l']|]; [|discriminate HO].
          destruct (scan_newline l') as [l2|]; [|discriminate HO]. inversion HO; subst. destruct ord; discriminate. }
        apply Nat.eqb_neq in Hp. rewrite Hp.
        destruct (if p =? 2 then scan_paths l else Some ([], l)) as [[o' l']|]; [|discriminate HO].
        destruct (scan_newline l') as [l2|]; [|discriminate HO]. inversion HO; subst. reflexivity. }
    destruct HT as (n & t & ET & Ht & HT). rewrite ET. clear ET T.
    unfold parse_edge.
    replace (words outs ++ B ": " ++ rule ++ B " " ++ words ins ++ repeat " "%char n ++ t)
      with (words outs ++ repeat " "%char 0 ++ ":"%char :: repeat " "%char 1 ++ rule ++ repeat " "%char 1 ++ words ins ++ repeat " "%char n ++ t) by reflexivity.
    rewrite scan_paths_any; [|auto|simpl; auto|simpl; auto|auto]. rewrite scan_pipe0 by discriminate. cbn [Nat.eqb].
    assert (Eo2 : match lits outs ++ [] with [] => true | _ => false end = false) by (destruct outs; [congruence|reflexivity]).
    destruct (lits outs ++ []) as [|x y] eqn:Ex; [discriminate|]. clear x y Ex Eo2.
    cbn [scan_char]. rewrite ceqb_refl.
    assert (Nr : no_space (rule ++ repeat " "%char 1 ++ words ins ++ repeat " "%char n ++ t)).
    { destruct Hr as [Hrne Hrv]. destruct rule as [|c r]; [congruence|]. cbn [forallb] in Hrv. apply andb_true_iff in Hrv as [Hc _].
      cbn [app no_space]. split; intros ->; discriminate Hc. }
    destruct (space_blanks 1 _ Nr) as [any Es]. rewrite Es. clear Es.
    assert (En : scan_name (rule ++ repeat " "%char 1 ++ words ins ++ repeat " "%char n ++ t) =
      Some (rule, if match ins with [] => true | _ => false end then t else words ins ++ repeat " "%char n ++ t)).
    { destruct ins as [|s ins'].
      - change (repeat " "%char 1 ++ words [] ++ repeat " "%char n ++ t) with (repeat " "%char (S n) ++ t).
        apply scan_name_rule; [auto|now apply ends_no_space|discriminate].
      - apply scan_name_rule; [auto|apply no_space_words; [auto|discriminate]|discriminate]. }
    rewrite En. clear En Nr.
    assert (Ep : scan_paths (if match ins with [] => true | _ => false end then t else words ins ++ repeat " "%char n ++ t) = Some (lits ins, t)).
    { destruct ins as [|s ins'].
      - pose proof (scan_paths_any [] 0 t (Forall_nil _) Ht (ends_head t Ht) (fun _ => eq_refl)) as Hp. exact Hp.
      - apply scan_paths_any; [auto|auto|now apply stops_blanks|discriminate]. }
    rewrite Ep. clear Ep.
    destruct (scan_pipe true true t) as [[p l]|]; [|discriminate HT].
    destruct (if p =? 1 then _ else _) as [[[im' p'] l']|]; [|discriminate HT].
    destruct (if p' =? 2 then _ else _) as [[or' l2]|]; [|discriminate HT].
    destruct (scan_newline l2) as [l3|]; [|discriminate HT]. inversion HT; subst. reflexivity.
Qed.

(** ** shell quoting *)
Lemma sh_quote_body s : forall w tail, sh_lex true (Some w) (shell_quote_body s ++ QUOTE :: tail) = sh_lex false (Some (w ++ s)) tail.
Proof.
  induction s as [|c s IH]; intros w tail.
  - cbn [shell_quote_body app sh_lex]. rewrite ceqb_refl. now rewrite app_nil_r.
  - cbn [shell_quote_body]. destruct (ceqb_spec c QUOTE) as [->|N].
    + cbn [app sh_lex]. rewrite !ceqb_refl. change (ceqb BSLASH QUOTE) with false. change (ceqb QUOTE NL) with false. cbv iota beta.
      rewrite IH. now rewrite <- app_assoc.
    + cbn [app sh_lex]. apply ceqb_neq in N. rewrite N. rewrite IH. now rewrite <- app_assoc.
Qed.
Lemma sh_quoted s tail : sh_lex false None (QUOTE :: shell_quote_body s ++ QUOTE :: tail) = sh_lex false (Some s) tail.
Proof. cbn [sh_lex]. rewrite ceqb_refl. rewrite sh_quote_body. reflexivity. Qed.
Lemma sh_plain_run s : forall w tail, forallb (fun c => negb (sh_special c || sh_blank c || ceqb c QUOTE || ceqb c BSLASH)) s = true ->
  sh_lex false (Some w) (s ++ tail) = sh_lex false (Some (w ++ s)) tail.
Proof.
  induction s as [|c s IH]; intros w tail H; [cbn [app]; now rewrite app_nil_r|].
  cbn [forallb] in H. apply andb_true_iff in H as [H1 H2]. apply negb_true_iff in H1.
  apply orb_false_iff in H1 as [H1 B1]. apply orb_false_iff in H1 as [H1 B2]. apply orb_false_iff in H1 as [B3 B4].
  cbn [app sh_lex]. rewrite B2, B1, B4, B3. rewrite andb_false_r. rewrite IH by auto. now rewrite <- app_assoc.
Qed.
Lemma sh_plain_word s tail : sh_plain s = true -> sh_lex false None (s ++ tail) = sh_lex false (Some s) tail.
Proof.
  unfold sh_plain. destruct s as [|c s]; [discriminate|]. intros H. apply andb_true_iff in H as [H0 H]. apply negb_true_iff in H0.
  cbn [forallb] in H. apply andb_true_iff in H as [H1 H2]. apply negb_true_iff in H1.
  apply orb_false_iff in H1 as [H1 B1]. apply orb_false_iff in H1 as [H1 B2]. apply orb_false_iff in H1 as [B3 B4].
  cbn [app sh_lex]. rewrite B2, B1, B4, B3, H0. cbn [andb app]. rewrite sh_plain_run by auto. reflexivity.
Qed.

(** an argument for which shell_escape works: it is quoted, or needs no quoting *)
Definition sh_arg_ok (s : bytes) : Prop := s = [] \/ existsb (fun c => mem_char c need_escaping) s = true \/ sh_plain s = true.
Lemma shell_escape_word s tail : sh_arg_ok s -> sh_lex false None (shell_escape s ++ tail) = sh_lex false (Some s) tail.
Proof.
  intros H. unfold shell_escape. destruct s as [|c s'] eqn:E; [reflexivity|]. rewrite <- E in *.
  destruct (existsb _ s) eqn:X.
  - cbn [app]. rewrite <- app_assoc. cbn [app]. apply sh_quoted.
  - apply sh_plain_word. destruct H as [H|[H|H]]; [subst; discriminate|congruence|exact H].
Qed.
Lemma sh_words_join (f : bytes -> bytes) l : (forall s tail, In s l -> sh_lex false None (f s ++ tail) = sh_lex false (Some s) tail) ->
  sh_words (joinb (B " ") (map f l)) = Some l.
Proof.
  unfold sh_words. induction l as [|s l IH]; intros H; [reflexivity|]. cbn [map]. destruct l as [|s' l'].
  - cbn [map joinb]. rewrite <- (app_nil_r (f s)). rewrite H by (now left). reflexivity.
  - change (joinb (B " ") (f s :: map f (s' :: l'))) with (f s ++ " "%char :: joinb (B " ") (map f (s' :: l'))).
    rewrite H by now left. cbn [sh_lex]. change (ceqb " " QUOTE) with false. change (ceqb " " BSLASH) with false.
    change (sh_blank " ") with true. cbv iota. rewrite IH; [reflexivity|]. intros x t Hx. apply H. now right.
Qed.

Lemma nodepath_body s : concat (map (fun c => if ceqb c QUOTE then [c; BSLASH; QUOTE; QUOTE] else [c]) s) = shell_quote_body s.
Proof. induction s as [|c s IH]; [reflexivity|]. cbn [map concat shell_quote_body]. rewrite IH. destruct (ceqb_spec c QUOTE) as [->|]; reflexivity. Qed.
Lemma safe_char c : negb (is_alnum c) && negb (mem_char c (B "_+-./")) = false ->
  negb (sh_special c || sh_blank c || ceqb c QUOTE || ceqb c BSLASH) = true /\ sh_start_special c = false.
Proof. destruct c as [[] [] [] [] [] [] [] []]; vm_compute; auto. Qed.
Lemma nodepath_word s tail : s <> [] -> sh_lex false None (nodepath s ++ tail) = sh_lex false (Some s) tail.
Proof.
  intros Hne. unfold nodepath. destruct (existsb _ s) eqn:X.
  - rewrite nodepath_body. cbn [app]. rewrite <- app_assoc. cbn [app]. apply sh_quoted.
  - apply sh_plain_word. unfold sh_plain. destruct s as [|c s]; [congruence|].
    assert (A : forall x, In x (c :: s) -> negb (is_alnum x) && negb (mem_char x (B "_+-./")) = false).
    { intros x Hx. destruct (negb (is_alnum x) && negb (mem_char x (B "_+-./"))) eqn:E; [|reflexivity].
      assert (Y : existsb (fun c => negb (is_alnum c) && negb (mem_char c (B "_+-./"))) (c :: s) = true) by (apply existsb_exists; eauto). congruence. }
    rewrite (proj2 (safe_char c (A c (or_introl eq_refl)))). cbn [negb andb]. apply forallb_forall. intros x Hx. now apply safe_char, A.
Qed.
Lemma pathlist_join nodes sep t : pathlist nodes sep = Some t -> t = joinb [sep] (map nodepath nodes).
Proof.
  unfold pathlist. destruct nodes as [|a [|b l]]; [discriminate|intros H; now inversion H|].
  intros H. apply (f_equal (fun o => match o with Some x => x | None => [] end)) in H. subst t.
  generalize (b :: l). clear b l. intros l. cbv zeta beta iota.
  assert (E : concat (map (fun n => nodepath n ++ [sep]) (a :: l)) = joinb [sep] (map nodepath (a :: l)) ++ [sep]).
  { revert a. induction l as [|b l IH]; intros a; [cbn [map concat joinb]; now rewrite app_nil_r|].
    change (concat (map (fun n => nodepath n ++ [sep]) (a :: b :: l))) with ((nodepath a ++ [sep]) ++ concat (map (fun n => nodepath n ++ [sep]) (b :: l))).
    rewrite IH. change (joinb [sep] (map nodepath (a :: b :: l))) with (nodepath a ++ [sep] ++ joinb [sep] (map nodepath (b :: l))).
    now rewrite <- !app_assoc. }
  rewrite E. apply removelast_last.
Qed.

(** ** variable lines *)
Definition var_char (c : ascii) : bool := negb (mem_char c [NUL; NL; CR; EOFB]).
Fixpoint desc (s : bytes) : bytes := match s with [] => [] | c :: s' => (if ceqb c DOLLAR then [DOLLAR; DOLLAR] else [c]) ++ desc s' end.
Lemma simple_escape_desc s : forallb var_char s = true -> simple_escape ["$"%char; NL] "$" s = Some (desc s).
Proof.
  induction s as [|c s IH]; intros H; [reflexivity|]. cbn [forallb] in H. apply andb_true_iff in H as [H1 H2].
  assert (N : ceqb c NL = false) by (apply ceqb_neq; intros ->; discriminate H1).
  cbn [simple_escape desc]. rewrite (IH H2). unfold mem_char. rewrite N. destruct (ceqb_spec c "$"%char) as [->|D]; [reflexivity|].
  apply ceqb_neq in D. fold DOLLAR in D. cbn [orb]. rewrite D. reflexivity.
Qed.
Lemma desc_app a b : desc (a ++ b) = desc a ++ desc b.
Proof. induction a as [|c a IH]; [reflexivity|]. cbn [app desc]. now rewrite IH, <- app_assoc. Qed.
Lemma desc_length s : length s <= length (desc s).
Proof. induction s as [|c s IH]; [simpl; lia|]. cbn [desc]. rewrite app_length. destruct (ceqb c _); simpl; lia. Qed.
Lemma scan_loop_desc s : forall f tail buf, forallb var_char s = true ->
  scan_loop (length s + f) false (desc s ++ tail) buf [] = scan_loop f false tail (buf ++ s) [].
Proof.
  induction s as [|c s IH]; intros f tail buf H; [cbn [length Nat.add desc app]; now rewrite app_nil_r|].
  cbn [forallb] in H. apply andb_true_iff in H as [H1 H2].
  assert (C1 : ceqb c NL = false) by (apply ceqb_neq; intros ->; discriminate H1).
  assert (C2 : ceqb c CR = false) by (apply ceqb_neq; intros ->; discriminate H1).
  assert (C3 : ceqb c EOFB = false) by (apply ceqb_neq; intros ->; discriminate H1).
  cbn [length Nat.add desc]. rewrite <- app_assoc. destruct (ceqb_spec c DOLLAR) as [->|D].
  - cbn [app scan_loop at_eof]. change (ceqb DOLLAR EOFB) with false. change (ceqb DOLLAR "$") with true. cbv iota.
    unfold escape. cbn [at_eof]. change (ceqb DOLLAR EOFB) with false. change (ceqb DOLLAR "$") with true. cbn [orb]. cbv iota.
    rewrite IH by auto. now rewrite <- app_assoc.
  - cbn [app scan_loop at_eof]. apply ceqb_neq in D. unfold DOLLAR in D. rewrite C1, C2, C3, D. cbn [andb orb].
    rewrite IH by auto. now rewrite <- app_assoc.
Qed.
Lemma joinb_desc l : joinb (B " ") (map desc l) = desc (joinb (B " ") l).
Proof.
  induction l as [|s l IH]; [reflexivity|]. cbn [map]. destruct l as [|s' l']; [reflexivity|].
  change (joinb (B " ") (desc s :: map desc (s' :: l'))) with (desc s ++ B " " ++ joinb (B " ") (map desc (s' :: l'))).
  change (joinb (B " ") (s :: s' :: l')) with (s ++ B " " ++ joinb (B " ") (s' :: l')). rewrite IH, !desc_app. reflexivity.
Qed.
Lemma quote_body_chars s : forallb var_char s = true -> forallb var_char (shell_quote_body s) = true.
Proof.
  induction s as [|c s IH]; [reflexivity|]. cbn [forallb shell_quote_body]. intros H. apply andb_true_iff in H as [H1 H2].
  rewrite forallb_app, IH by auto. destruct (ceqb c QUOTE); [reflexivity|]. cbn [forallb]. now rewrite H1.
Qed.
Lemma shell_escape_chars s : forallb var_char s = true -> forallb var_char (shell_escape s) = true.
Proof.
  intros H. unfold shell_escape. destruct s as [|c s'] eqn:E; [reflexivity|]. rewrite <- E in *. destruct (existsb _ s); [|exact H].
  cbn [forallb]. rewrite forallb_app, (quote_body_chars s H). reflexivity.
Qed.
Lemma shell_escape_head s : exists c r, shell_escape s = c :: r /\ c <> " "%char /\ c <> "$"%char.
Proof.
  unfold shell_escape. destruct s as [|c s']; [do 2 eexists; split; [reflexivity|split; discriminate]|].
  destruct (existsb (fun c => mem_char c need_escaping) (c :: s')) eqn:E.
  - do 2 eexists; split; [reflexivity|split; discriminate].
  - exists c, s'. split; [reflexivity|]. cbn [existsb] in E. apply orb_false_iff in E as [E _]. split; intros ->; discriminate E.
Qed.
Lemma joinb_chars l : Forall (fun s => forallb var_char s = true) l -> forallb var_char (joinb (B " ") l) = true.
Proof.
  induction 1 as [|s l Hs Hl IH]; [reflexivity|]. destruct l as [|s' l']; [exact Hs|].
  change (joinb (B " ") (s :: s' :: l')) with (s ++ B " " ++ joinb (B " ") (s' :: l')). rewrite !forallb_app, Hs, IH. reflexivity.
Qed.

Definition shell_line (args : list bytes) : bytes := joinb (B " ") (map shell_escape args).
Lemma parse_let_written name args text rest :
  rule_ok name -> Forall (fun s => forallb var_char s = true) args ->
  write_var name args = Some text ->
  exists body, space (text ++ rest) = Some (true, body) /\
    parse_let body = Some (name, flush (shell_line args) [], rest).
Proof.
  intros Hn Ha Hw. unfold write_var, join_args_shell_ninja in Hw. rewrite join_args_spec in Hw.
  assert (Hs : Forall (fun s => forallb var_char s = true) (map shell_escape args)).
  { rewrite Forall_map. eapply Forall_impl; [|exact Ha]. intros s. apply shell_escape_chars. }
  rewrite all_some_map with (g := fun s => desc (shell_escape s)) in Hw.
  2: { intros s Hs'. unfold shell_ninja_escape. apply simple_escape_desc, shell_escape_chars. rewrite Forall_forall in Ha. now apply Ha. }
  rewrite <- map_map in Hw. cbn [option_map] in Hw. rewrite joinb_desc in Hw. fold (shell_line args) in Hw.
  apply (f_equal (fun o => match o with Some x => x | None => [] end)) in Hw. cbv beta iota in Hw. subst text.
  set (v := shell_line args) in *.
  assert (Hv : forallb var_char v = true) by (apply joinb_chars, Hs).
  exists (name ++ repeat " "%char 1 ++ "="%char :: repeat " "%char 1 ++ desc v ++ NL :: rest).
  assert (Nn : no_space (name ++ repeat " "%char 1 ++ "="%char :: repeat " "%char 1 ++ desc v ++ NL :: rest)).
  { destruct Hn as [Hne Hv']. destruct name as [|c r]; [congruence|]. cbn [forallb] in Hv'. apply andb_true_iff in Hv' as [Hc _].
    cbn [app no_space]. split; intros ->; discriminate Hc. }
  split.
  - replace ((B " " ++ name ++ B " = " ++ desc v ++ [NL]) ++ rest)
      with (repeat " "%char 1 ++ name ++ repeat " "%char 1 ++ "="%char :: repeat " "%char 1 ++ desc v ++ NL :: rest)
      by (rewrite <- !app_assoc; reflexivity).
    unfold space. cbn [repeat app length space_loop singlespace]. change (ceqb " " "$") with false. rewrite ceqb_refl.
    apply space_loop_no. exact Nn.
  - assert (Nd : no_space (desc v ++ NL :: rest)).
    { unfold v, shell_line. destruct args as [|s args']; [cbn; split; discriminate|].
      destruct (shell_escape_head s) as (c & r & E & C1 & C2).
      assert (X : exists r', desc (joinb (B " ") (map shell_escape (s :: args'))) = c :: r').
      { cbn [map]. destruct (map shell_escape args') as [|y ys].
        - cbn [joinb]. rewrite E. cbn [desc]. apply ceqb_neq in C2. fold DOLLAR in C2. rewrite C2. cbn [app]. eauto.
        - change (joinb (B " ") (shell_escape s :: y :: ys)) with (shell_escape s ++ B " " ++ joinb (B " ") (y :: ys)).
          rewrite desc_app, E. cbn [desc]. apply ceqb_neq in C2. fold DOLLAR in C2. rewrite C2. cbn [app]. eauto. }
      destruct X as [r' ->]. cbn [app no_space]. split; congruence. }
    unfold parse_let. rewrite scan_name_rule; [|auto|cbn; split; discriminate|discriminate].
    cbn [scan_char]. rewrite ceqb_refl. destruct (space_blanks 1 _ Nd) as [any ->].
    unfold scan_string.
    assert (L : exists f, S (length (desc v ++ NL :: rest)) = length v + S f).
    { exists (length (desc v ++ NL :: rest) - length v). pose proof (desc_length v). rewrite app_length. lia. }
    destruct L as [f ->]. rewrite scan_loop_desc by auto. cbn [scan_loop at_eof app].
    change (ceqb NL EOFB) with false. change (ceqb NL "$") with false. cbn [andb].
    change (ceqb NL CR || ceqb NL NL) with true. cbv iota. reflexivity.
Qed.

(** ** argument vectors *)
Lemma pushall_spec l : forall i argc argv max tail, l <> [] -> Forall (fun s => ~ In NUL s) l -> argc = i + length l -> length argv + length l <= max ->
  argstr_pushall (concat (map (fun s => s ++ [NUL]) l) ++ tail) [] i argc argv max = Some (argv ++ l).
Proof.
  assert (W : forall s p arg i argc argv max, ~ In NUL s -> argstr_pushall (s ++ p) arg i argc argv max = argstr_pushall p (arg ++ s) i argc argv max).
  { induction s as [|c s IH]; intros p arg i argc argv max H; [cbn [app]; now rewrite app_nil_r|].
    cbn [app argstr_pushall]. destruct (ceqb_spec c NUL) as [->|N]; [exfalso; apply H; now left|].
    rewrite IH; [now rewrite <- app_assoc|]. intros X; apply H; now right. }
  induction l as [|s l IH]; intros i argc argv max tail Hne Hn Hargc Hmax; [congruence|]. inversion Hn; subst.
  cbn [map concat]. rewrite <- !app_assoc. rewrite W by auto. cbn [app argstr_pushall]. rewrite ceqb_refl.
  cbn [length] in *. destruct (Nat.leb_spec max (length argv)); [lia|].
  destruct l as [|s' l'].
  - cbn [length]. destruct (Nat.leb_spec (i + 1) (i + 1)); [reflexivity|lia].
  - cbn [length] in *. destruct (Nat.leb_spec (i + S (S (length l'))) (i + 1)); [lia|].
    rewrite IH; [now rewrite <- app_assoc|discriminate|auto|simpl; lia|rewrite app_length; simpl; lia].
Qed.
Lemma cstr_at_spec v tail : ~ In NUL v -> cstr_at (v ++ NUL :: tail) = v.
Proof. intros H. unfold cstr_at. rewrite break_at_compute; [reflexivity|auto|eauto]. Qed.
Lemma envstr_spec l : forall i envc tail, l <> [] -> Forall (fun '(k, v) => ~ In NUL k /\ ~ In NUL v) l -> envc = i + length l ->
  envstr_calls (concat (map (fun '(k, v) => (k ++ [NUL]) ++ v ++ [NUL]) l) ++ tail) (Some []) i envc = Some l.
Proof.
  assert (W : forall s p k i envc, ~ In NUL s -> envstr_calls (s ++ p) (Some k) i envc = envstr_calls p (Some (k ++ s)) i envc).
  { induction s as [|c s IH]; intros p k i envc H; [cbn [app]; now rewrite app_nil_r|].
    cbn [app envstr_calls]. destruct (ceqb_spec c NUL) as [->|N]; [exfalso; apply H; now left|].
    rewrite IH; [now rewrite <- app_assoc|]. intros X; apply H; now right. }
  assert (V : forall s p i envc, ~ In NUL s -> envstr_calls (s ++ p) None i envc = envstr_calls p None i envc).
  { induction s as [|c s IH]; intros p i envc H; [reflexivity|].
    cbn [app envstr_calls]. destruct (ceqb_spec c NUL) as [->|N]; [exfalso; apply H; now left|].
    apply IH. intros X; apply H; now right. }
  induction l as [|[k v] l IH]; intros i envc tail Hne Hn Henv; [congruence|]. inversion Hn as [|? ? Hkv Hl]; subst. cbn beta iota in Hkv. destruct Hkv as [Hk Hv].
  cbn [map concat]. rewrite <- !app_assoc. rewrite W by auto. cbn [app envstr_calls]. rewrite ceqb_refl.
  rewrite cstr_at_spec by auto. cbn [length]. destruct l as [|[k' v'] l'].
  - cbn [length]. destruct (Nat.leb_spec (i + 1) (i + 1)); [reflexivity|lia].
  - cbn [length]. destruct (Nat.leb_spec (i + S (S (length l'))) (i + 1)); [lia|].
    rewrite V by auto. cbn [envstr_calls]. rewrite ceqb_refl. rewrite IH; [reflexivity|discriminate|auto|simpl; lia].
Qed.
