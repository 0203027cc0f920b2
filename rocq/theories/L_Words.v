(** Lemmas about command lines in the build file: how they are spelled, what they expand to and what words they are. *)
From Coq Require Import Lia.
From Verif Require Import Base S_Escape M_Escape L_Escape S_Tree S_Env S_Backend S_Manifest L_Spelling L_Backend.
Local Arguments B _ : simpl never.

Fixpoint joina (l : list (list atom)) : list atom :=
  match l with [] => [] | a :: l => match l with [] => a | _ => a ++ Chr " " :: joina l end end.
Lemma joina_cons a l : l <> [] -> joina (a :: l) = a ++ Chr " " :: joina l.
Proof. now destruct l. Qed.
Lemma joinb_cons (s : bytes) l : l <> [] -> joinb (B " ") (s :: l) = s ++ " "%char :: joinb (B " ") l.
Proof. now destruct l. Qed.
Lemma Forall2_nonempty {A C} (R : A -> C -> Prop) a b : Forall2 R a b -> a <> [] -> b <> [].
Proof. now destruct 1. Qed.

(** ** spelling *)
Definition spells (a : list atom) (w : bytes) : Prop :=
  forall as' t, written false as' t -> (forall c r, t = c :: r -> simple_char c = false) -> written false (a ++ as') (w ++ t).
Lemma spells_written a w : spells a w -> written false a w.
Proof. intros H. specialize (H [] [] (w_nil _)). rewrite !app_nil_r in H. apply H. discriminate. Qed.
Lemma spells_chars s : forallb (plain false) s = true -> spells (Chars s) s.
Proof.
  intros H as' t Ht _. induction s as [|c s IH]; [exact Ht|]. cbn [forallb] in H. apply andb_true_iff in H as [H1 H2].
  cbn [Chars map app]. apply w_char; [exact H1|now apply IH].
Qed.
Lemma spells_desc s : forallb var_char s = true -> spells (Chars s) (desc s).
Proof.
  intros H as' t Ht _. induction s as [|c s IH]; [exact Ht|]. cbn [forallb] in H. apply andb_true_iff in H as [H1 H2].
  unfold Chars. cbn [map desc app]. destruct (ceqb_spec c DOLLAR) as [->|D].
  - apply (w_quoted false DOLLAR); [reflexivity|now apply IH].
  - cbn [app]. apply w_char; [|now apply IH]. unfold plain. cbn [andb negb]. rewrite andb_true_r. apply negb_true_iff, mem_char_not_In.
    unfold var_char in H1. apply negb_true_iff, mem_char_not_In in H1. cbn in *. unfold EOFB, DOLLAR in *. intuition.
Qed.
Lemma spells_var v : v <> [] -> forallb simple_char v = true -> spells [Var v] (B "$" ++ v).
Proof. intros H1 H2 as' t Ht Hs. cbn [app]. rewrite <- app_assoc. now apply w_short. Qed.
Lemma spells_dotd : spells (Var (B "out") :: Chars (B ".d")) (B "${out}.d").
Proof.
  intros as' t Ht Hs. change (B "${out}.d" ++ t) with (B "${" ++ B "out" ++ B "}" ++ B ".d" ++ t). cbn [app]. apply w_var; [reflexivity|].
  apply spells_chars; [reflexivity|exact Ht|exact Hs].
Qed.
Lemma spells_app_chars s a w : forallb (plain false) s = true -> spells a w -> spells (Chars s ++ a) (s ++ w).
Proof.
  intros H Ha as' t Ht Hs. induction s as [|c s IH]; [now apply Ha|]. cbn [forallb] in H. apply andb_true_iff in H as [H1 H2].
  cbn [Chars map app]. apply w_char; [exact H1|now apply IH].
Qed.
Lemma spells_join as' ws : Forall2 spells as' ws -> spells (joina as') (joinb (B " ") ws).
Proof.
  induction 1 as [|a w l m Ha Hl IH]; [intros as' t Ht _; exact Ht|]. destruct l as [|a' l].
  - inversion Hl; subst. exact Ha.
  - rewrite joina_cons by discriminate. rewrite joinb_cons by (eapply Forall2_nonempty; [exact Hl|discriminate]).
    intros bs t Ht Hs. rewrite <- !app_assoc. cbn [app]. apply Ha.
    + apply w_char; [reflexivity|]. now apply IH.
    + intros c r [= <- _]. reflexivity.
Qed.

(** ** values *)
Definition expands (d : defs) (a : list atom) (s : bytes) : Prop :=
  forall as' s', text nodepath d (pieces_of as') s' -> text nodepath d (pieces_of (a ++ as')) (s ++ s').
Lemma expands_text d a s : expands d a s -> text nodepath d (pieces_of a) s.
Proof. intros H. specialize (H [] [] (t_nil _ _)). now rewrite !app_nil_r in H. Qed.
Lemma expands_chars d s : expands d (Chars s) s.
Proof.
  intros as' s' H. induction s as [|c s IH]; [exact H|]. cbn [Chars map app pieces_of]. change (map Chr s) with (Chars s).
  revert IH. generalize (s ++ s'). destruct (pieces_of (Chars s ++ as')) as [|[x|x] ps]; intros t Ht.
  - inversion Ht; subst. apply (t_str _ _ [c]). constructor.
  - inversion Ht as [|? ? u Hu|]; subst. apply (t_str _ _ (c :: x)). exact Hu.
  - apply (t_str _ _ [c]). exact Ht.
Qed.
Lemma expands_var d v x : value nodepath d v x -> expands d [Var v] (or_empty x).
Proof. intros H as' s' Ht. cbn [app pieces_of]. now apply t_var. Qed.
Lemma expands_app d a b s t : expands d a s -> expands d b t -> expands d (a ++ b) (s ++ t).
Proof. intros H1 H2 as' s' H. rewrite <- !app_assoc. apply H1. now apply H2. Qed.
Lemma expands_join d as' ss : Forall2 (expands d) as' ss -> expands d (joina as') (joinb (B " ") ss).
Proof.
  induction 1 as [|a s l m Ha Hl IH]; [intros bs t Ht; exact Ht|]. destruct l as [|a' l].
  - inversion Hl; subst. exact Ha.
  - rewrite joina_cons by discriminate. rewrite joinb_cons by (eapply Forall2_nonempty; [exact Hl|discriminate]).
    change (Chr " " :: joina (a' :: l)) with (Chars (B " ") ++ joina (a' :: l)). change (" "%char :: joinb (B " ") m) with (B " " ++ joinb (B " ") m).
    apply expands_app; [exact Ha|]. apply expands_app; [apply expands_chars|exact IH].
Qed.

(** ** words *)
Definition yields (tx : bytes) (ws : list bytes) : Prop :=
  forall tail, (tail = [] \/ exists r, tail = " "%char :: r) -> sh_lex false None (tx ++ tail) = option_map (app ws) (sh_lex false None tail).
Lemma sh_lex_space t : sh_lex false None (" "%char :: t) = sh_lex false None t. Proof. reflexivity. Qed.
Lemma option_map_id {A} (x : option (list A)) : option_map (app []) x = x. Proof. now destruct x. Qed.
Lemma yields_words tx ws : yields tx ws -> sh_words tx = Some ws.
Proof. intros H. specialize (H [] (or_introl eq_refl)). rewrite app_nil_r in H. unfold sh_words. rewrite H. cbn. now rewrite app_nil_r. Qed.
Lemma yields_nil : yields [] []. Proof. intros tail _. now rewrite option_map_id. Qed.
Lemma yields_word tx w : (forall tail, sh_lex false None (tx ++ tail) = sh_lex false (Some w) tail) -> yields tx [w].
Proof. intros H tail Ht. rewrite H. destruct Ht as [->|(r & ->)]; reflexivity. Qed.
Lemma yields_join txs wss : Forall2 yields txs wss -> yields (joinb (B " ") txs) (concat wss).
Proof.
  induction 1 as [|tx ws l m Ha Hl IH]; [apply yields_nil|]. cbn [concat]. destruct l as [|tx' l].
  - inversion Hl; subst. cbn [joinb concat]. now rewrite app_nil_r.
  - rewrite joinb_cons by discriminate. intros tail Ht. rewrite <- app_assoc. cbn [app]. rewrite Ha by (right; eauto). rewrite sh_lex_space, IH by exact Ht.
    destruct (sh_lex false None tail); cbn [option_map]; [|reflexivity]. now rewrite app_assoc.
Qed.
Lemma yields_plain s : sh_plain s = true -> yields s [s].
Proof. intros H. apply yields_word. intros tail. now apply sh_plain_word. Qed.
Lemma yields_plains l : Forall (fun s => sh_plain s = true) l -> Forall2 yields l (map (fun s => [s]) l).
Proof. induction 1; constructor; [now apply yields_plain|auto]. Qed.
Lemma concat_singles {A} (l : list A) : concat (map (fun s => [s]) l) = l.
Proof. induction l as [|x l IH]; [reflexivity|]. cbn [map concat app]. now rewrite IH. Qed.
Lemma yields_names l : Forall (fun s => s <> []) l -> yields (or_empty (listed nodepath " " l)) l.
Proof.
  intros H. destruct l as [|s l]; [apply yields_nil|]. cbn [listed or_empty]. change [" "%char] with (B " ").
  rewrite <- (concat_singles (s :: l)) at 2. apply yields_join. induction H as [|x r Hx H IH]; [constructor|]. cbn [map]. constructor; [|exact IH].
  apply yields_word. intros tail. now apply nodepath_word.
Qed.
Lemma yields_dotd s : s <> [] -> yields (or_empty (listed nodepath " " [s]) ++ B ".d") [s ++ B ".d"].
Proof.
  intros H. apply yields_word. intros tail. cbn [listed or_empty map joinb]. rewrite <- app_assoc, nodepath_word by exact H. now apply sh_plain_run.
Qed.
Lemma yields_line args : Forall a_word args -> yields (shell_line args) args.
Proof.
  intros H. unfold shell_line. rewrite <- (concat_singles args) at 2. apply yields_join. induction H as [|x r [_ Hw] H IH]; [constructor|]. cbn [map]. constructor; [|exact IH].
  apply yields_word. intros tail. apply shell_escape_word.
  destruct Hw as [->|[(c & Hc & Hm)|Hw]]; unfold sh_arg_ok; auto. right. left. apply existsb_exists. exists c. split; [exact Hc|].
  cbn in Hm. repeat (destruct Hm as [<-|Hm]; [vm_compute; reflexivity|]). destruct Hm.
Qed.

(** ** words that stand for themselves *)
Lemma plain_char c : c <> NUL -> c <> NL -> c <> CR -> c <> ch 255 -> c <> "$"%char -> plain false c = true.
Proof. intros. unfold plain. cbn [andb negb]. rewrite andb_true_r. apply negb_true_iff, mem_char_not_In. cbn [In]. intuition congruence. Qed.
Lemma join_plain l : join_args_plain l = Some (joinb (B " ") l).
Proof. unfold join_args_plain. rewrite join_args_spec. rewrite all_some_map with (g := fun s => s) by reflexivity. cbn [option_map]. now rewrite map_id. Qed.
Local Arguments B _ : simpl never.
Lemma not_special_dollar c : sh_special c || sh_blank c || ceqb c QUOTE || ceqb c BSLASH = false -> c <> "$"%char /\ c <> " "%char.
Proof. intros H. split; intros ->; discriminate H. Qed.
