(** Dependency files as gcc and clang write them: make rules without recipes. *)
From Verif Require Import Base.

Definition blank (c : ascii) : Prop := c = " "%char \/ c = TAB.
(** The characters a name is made of; the reader rejects others. *)
Definition name_letter (c : ascii) : Prop :=
  is_alnum c = true \/ In c (B "$+,-./@\_#") \/ blank c.
Definition file_name (n : bytes) : Prop :=
  Forall name_letter n /\
  (exists c r, n = c :: r /\ ~ blank c /\ c <> "#"%char /\ c <> BSLASH) /\
  (exists c r, n = r ++ [c] /\ c <> BSLASH).

(** How a compiler writes a name: a dollar is doubled, a number sign or a blank gets a backslash, and
    so does each backslash of those that come right before a blank. *)
Definition blank_b (c : ascii) : bool := ceqb c " " || ceqb c TAB.
Fixpoint before_blank (l : bytes) : bool :=
  match l with
  | [] => false
  | c :: l' => if ceqb c BSLASH then before_blank l' else blank_b c
  end.
Fixpoint escaped (n : bytes) : bytes :=
  match n with
  | [] => []
  | c :: n' =>
      (if ceqb c "$" then ["$"; "$"]%char
       else if ceqb c "#" || blank_b c then [BSLASH; c]
       else if ceqb c BSLASH && before_blank n' then [BSLASH; BSLASH]
       else [c]) ++ escaped n'
  end.

Definition line_end (e : bytes) : Prop := e = [NL] \/ e = [CR; NL].
(** between two names: blanks and continued lines *)
Inductive gap : bytes -> Prop :=
| g_nil : gap []
| g_blank c g : blank c -> gap g -> gap (c :: g)
| g_line e g : line_end e -> gap g -> gap (BSLASH :: e ++ g).
Inductive more : list bytes -> bytes -> Prop :=
| m_nil g : gap g -> more [] g
| m_cons g n ns t : gap g -> g <> [] -> file_name n -> more ns t -> more (n :: ns) (g ++ escaped n ++ t).
(** what follows the colon *)
Inductive listing : list bytes -> bytes -> Prop :=
| ls_more ns t : more ns t -> listing ns t
| ls_first n ns t : file_name n -> more ns t -> listing (n :: ns) (escaped n ++ t).
Inductive ends : bytes -> Prop :=
| e_one e : line_end e -> ends e
| e_more e r : line_end e -> ends r -> ends (e ++ r).
(** one or more rules for the same target *)
Inductive depfile (target : bytes) : list bytes -> bytes -> Prop :=
| d_last ns b t : Forall blank b -> listing ns t -> depfile target ns (escaped target ++ b ++ ":"%char :: t)
| d_end ns b t e : Forall blank b -> listing ns t -> ends e ->
    depfile target ns (escaped target ++ b ++ ":"%char :: t ++ e)
| d_rule ns b t e b' ns' t' : Forall blank b -> listing ns t -> ends e -> Forall blank b' ->
    depfile target ns' t' -> depfile target (ns ++ ns') (escaped target ++ b ++ ":"%char :: t ++ e ++ b' ++ t').

(** No vertical tab, no form feed, and a carriage return only before a newline. *)
Definition VT := ch 11.
Definition FF := ch 12.
Definition tidy (text : bytes) : Prop :=
  forall a c b, text = a ++ c :: b -> c <> VT /\ c <> FF /\ (c = CR -> exists r, b = NL :: r).
