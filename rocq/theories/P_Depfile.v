(** C102, C103: dependency files. *)
From Verif Require Import Base M_Depfile S_Depfile L_Depfile.

(** C102.  A file that a compiler writes for [target], with any number of rules, blanks and continued
    lines, gives the names that were written.  Missing: names with other characters than those of
    [file_name], names that begin with a number sign, a blank or a backslash or end with a backslash:
    see [C102_refuted]. *)
Theorem C102_dependency_files_partial : forall target ns text, file_name target -> depfile target ns text ->
  exists bound, forall fuel, bound <= fuel -> depsparse fuel text = Ok ns.
Proof.
  intros target ns text Ht D. destruct (src_getc text) as [c s] eqn:G.
  destruct (depfile_reads target ns text Ht D c s None [] G (or_introl eq_refl)) as (k & R).
  exists k. intros fuel L. unfold depsparse. rewrite G. replace fuel with (k + (fuel - k)) by lia. apply R.
Qed.
Print Assumptions C102_dependency_files_partial.
(** The names are read as they are written: no two lists of names have a file in common. *)
Theorem C102_one_reading_partial : forall target target' ns ns' text, file_name target -> file_name target' ->
  depfile target ns text -> depfile target' ns' text -> ns = ns'.
Proof.
  intros target target' ns ns' text Ht Ht' D D'.
  destruct (C102_dependency_files_partial _ _ _ Ht D) as (b & R).
  destruct (C102_dependency_files_partial _ _ _ Ht' D') as (b' & R').
  specialize (R (b + b') ltac:(lia)). specialize (R' (b + b') ltac:(lia)). congruence.
Qed.
Print Assumptions C102_one_reading_partial.

Lemma name_of : forall c r, Forall name_letter (c :: r) -> ~ blank c -> c <> "#"%char -> c <> BSLASH ->
  last (c :: r) c <> BSLASH -> file_name (c :: r).
Proof.
  intros c r F N1 N2 N3 La. split; [exact F|]. split; [exists c, r; auto|].
  exists (last (c :: r) c), (removelast (c :: r)). split; [|exact La]. apply app_removelast_last. discriminate.
Qed.
Lemma letters_of : forall n, forallb (fun c => is_alnum c || mem_char c (B "$+,-./@\_# ")) n = true -> Forall name_letter n.
Proof.
  intros n H. apply Forall_forall. intros c Ic. rewrite forallb_forall in H. specialize (H c Ic).
  apply Bool.orb_true_iff in H. destruct H as [H|H]; [left; exact H|]. right.
  assert (Id : In c (B "$+,-./@\_#" ++ [" "%char])).
  { apply mem_char_In. exact H. }
  apply in_app_or in Id.
  destruct Id as [Id|[<-|[]]]; [left; exact Id|right; left; reflexivity].
Qed.
Ltac a_name := apply name_of; [apply letters_of; vm_compute; reflexivity | intros [E|E]; discriminate E | discriminate | discriminate | vm_compute; discriminate].
Definition target0 : bytes := B "obj/a b.o".
Definition text0 : bytes :=
  B "obj/a\ b.o: src/a$$1.c " ++ [BSLASH; NL] ++ B "  inc/c\#.h" ++ [NL] ++ B "obj/a\ b.o :inc\d.h" ++ [CR; NL; NL].
Example ex_depfile : file_name target0 /\ depfile target0 [B "src/a$1.c"; B "inc/c#.h"; B "inc\d.h"] text0.
Proof.
  assert (T : file_name target0) by a_name. split; [exact T|].
  apply (d_rule target0 [B "src/a$1.c"; B "inc/c#.h"] [] (" "%char :: B "src/a$$1.c" ++ B " \" ++ NL :: B "  " ++ B "inc/c\#.h")
           [NL] [] [B "inc\d.h"]).
  - constructor.
  - apply ls_more. apply (m_cons (B " ") (B "src/a$1.c") [B "inc/c#.h"] (B " \" ++ NL :: B "  " ++ B "inc/c\#.h"));
      [constructor; [left; reflexivity|constructor]|discriminate|a_name|].
    apply (m_cons (B " \" ++ NL :: B "  ") (B "inc/c#.h") [] []); [|discriminate|a_name|constructor; constructor].
    constructor; [left; reflexivity|]. apply (g_line [NL] (B "  ")); [left; reflexivity|].
    repeat constructor; left; reflexivity.
  - constructor. left. reflexivity.
  - constructor.
  - apply (d_end target0 [B "inc\d.h"] (B " ") (B "inc\d.h") [CR; NL; NL]).
    + repeat constructor; left; reflexivity.
    + apply (ls_first (B "inc\d.h") [] []); [a_name|constructor; constructor].
    + apply (e_more [CR; NL] [NL]); [right; reflexivity|constructor; left; reflexivity].
Qed.

(** Names that the reader rejects although a compiler writes them: those that begin with a number sign, and
    those with an equals sign, a tilde, a parenthesis, a colon, or a byte above 127.  And a file that was cut
    off before the colon is taken for one without dependencies. *)
Theorem C102_refuted :
  (forall n fuel, In n [B "#x.h"; B "a=b.h"; B "~/a.h"; B "c++(1)/a.h"; B "C:\a.h"; ch 195 :: ch 169 :: B ".h"] ->
     depsparse fuel (B "a.o: " ++ escaped n ++ [NL]) <> Ok [n]) /\
  (forall fuel, depsparse (S (S fuel)) (B "a.o") = Ok []).
Proof.
  split; [|reflexivity]. intros n fuel H.
  do 4 (destruct fuel as [|fuel]; [repeat (destruct H as [<-|H]; [vm_compute; discriminate|]); destruct H|]).
  repeat (destruct H as [<-|H]; [vm_compute; discriminate|]); destruct H.
Qed.
Print Assumptions C102_refuted.

(** C103.  The reader comes to an end, after at most as many words as there are characters.  Missing: files
    with a vertical tab, a form feed, or a carriage return that no newline follows. *)
Theorem C103_reading_ends_partial : forall text fuel, tidy text -> length text < fuel -> depsparse fuel text <> NoFuel.
Proof. exact depsparse_ends. Qed.
Print Assumptions C103_reading_ends_partial.
Example ex_tidy : tidy (B "a.o: b" ++ [CR; NL] ++ B "?").
Proof.
  intros a c b E. do 9 (destruct a as [|? a]; [injection E as <- <-|injection E as <- E];
    [repeat split; try (vm_compute; discriminate); intros X; try (vm_compute in X; discriminate X); eexists; reflexivity|]).
  destruct a; discriminate.
Qed.
(** Such a character after the colon makes the reader loop for ever. *)
Theorem C103_refuted : forall fuel c rest, In c [CR; VT; FF] -> hd NUL rest <> NL ->
  depsparse fuel (B "a.o: b.h" ++ c :: rest) = NoFuel.
Proof.
  intros fuel c rest H N. destruct fuel as [|[|fuel]]; [reflexivity| |].
  - reflexivity.
  - assert (G : src_getc (c :: rest) = (Some c, rest)).
    { cbn in H. destruct H as [<-|[<-|[<-|[]]]]; try reflexivity. cbn [src_getc]. change (ceqb CR CR) with true.
      cbv iota. destruct rest as [|d rest]; [reflexivity|]. cbn [hd] in N. destruct (ceqb_spec d NL); [tauto|reflexivity]. }
    cbn in H. change (B "a.o: b.h" ++ c :: rest) with ("a"%char :: B ".o: b.h" ++ c :: rest).
    assert (Tn : file_name (B "a.o")) by a_name. assert (Nn : file_name (B "b.h")) by a_name.
    unfold depsparse. rewrite (getc_simple "a") by (split; vm_compute; discriminate).
    remember (S fuel) as f eqn:Ef. cbn [rules].
    assert (Sp : stop 0 (B ": b.h" ++ c :: rest) (Some ":"%char) (B " b.h" ++ c :: rest)) by (constructor; reflexivity).
    rewrite (name_reads (B "a.o") 0 _ _ _ (Some "a"%char) (B ".o: b.h" ++ c :: rest) Tn Sp) by reflexivity.
    change (skip_while isblank (S (S (length (B " b.h" ++ c :: rest)))) (Some ":"%char) (B " b.h" ++ c :: rest))
      with (Ok (Some ":"%char, B " b.h" ++ c :: rest)).
    cbv iota beta. change (negb (is ":" (Some ":"%char))) with false. cbv iota.
    change (src_getc (B " b.h" ++ c :: rest)) with (Some " "%char, B "b.h" ++ c :: rest). cbv iota beta.
    change (skip_gap (S (S (length (B "b.h" ++ c :: rest)))) (Some " "%char) (B "b.h" ++ c :: rest))
      with (@Ok (int_ * bytes) (Some "b"%char, B ".h" ++ c :: rest)). cbv iota beta. subst f. cbn [rules].
    assert (Sp2 : stop 0 (c :: rest) (Some c) rest).
    { constructor; [exact G|]. destruct H as [<-|[<-|[<-|[]]]]; reflexivity. }
    rewrite (name_reads (B "b.h") 0 _ _ _ (Some "b"%char) (B ".h" ++ c :: rest) Nn Sp2) by reflexivity.
    assert (H' : c = CR \/ c = VT \/ c = FF) by (destruct H as [<-|[<-|[<-|[]]]]; auto).
    assert (E1 : isspace (Some c) = true) by (destruct H' as [->|[->| ->]]; reflexivity).
    assert (E2 : is NL (Some c) = false) by (destruct H' as [->|[->| ->]]; reflexivity).
    assert (E3 : skip_gap (S (S (length rest))) (Some c) rest = Ok (Some c, rest)) by (destruct H' as [->|[->| ->]]; reflexivity).
    rewrite E1, E2, E3. cbn [negb andb]. apply stuck. exact H'.
Qed.
Print Assumptions C103_refuted.
