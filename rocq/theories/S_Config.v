(** What a configuration template means, as rules: [conf_rel bol t o] says that the template
    text [t] (starting at the beginning of a line when [bol]) becomes [o].  And what a C
    string literal denotes. *)
From Verif Require Import Base M_Format M_Config.

Definition begins (p l : bytes) : Prop := exists r, l = p ++ r.
Definition occurs (p l : bytes) : Prop := exists a b, l = a ++ p ++ b.
Definition end_of_line (l : bytes) : Prop := l = [] \/ (exists r, l = NL :: r) \/ (exists r, l = NUL :: r).
Definition blank (c : ascii) : Prop := c = " "%char \/ c = TAB.
(** letters, digits, '_' and '-' *)
Definition name_char (c : ascii) : bool :=
  let n := N_of_ascii c in
  ((97 <=? n) && (n <=? 122) || (65 <=? n) && (n <=? 90) || (48 <=? n) && (n <=? 57) || (n =? 95) || (n =? 45))%N.
Definition is_name (n : bytes) : Prop := Forall (fun c => name_char c = true) n.

(** the text of a value in a reference *)
Inductive shows : cfg_value -> bytes -> Prop :=
| Sh_str : forall s, shows (VStr s) s
| Sh_file : forall s, shows (VFile s) s
| Sh_num : forall z, shows (VNum z) (number_to_string z)
| Sh_true : shows (VBool true) (B "true")
| Sh_false : shows (VBool false) (B "false").
(** the line a define line becomes *)
Inductive defines (name : bytes) : option cfg_value -> bytes -> Prop :=
| D_missing : defines name None (B "/* undef " ++ name ++ B " */")
| D_true : defines name (Some (VBool true)) (B "#define " ++ name)
| D_false : defines name (Some (VBool false)) (B "#undef " ++ name)
| D_num : forall z, defines name (Some (VNum z)) (B "#define " ++ name ++ B " " ++ number_to_string z)
| D_str : forall s, ~ In NUL s -> defines name (Some (VStr s)) (B "#define " ++ name ++ B " " ++ s)
| D_cut : forall s r, ~ In NUL s -> defines name (Some (VStr (s ++ NUL :: r))) (B "#define " ++ name ++ B " " ++ s).

Section Rules.
Variables (cmakedefine cmakevar : bool) (dict : bytes -> option cfg_value).
Definition word := if cmakedefine then B "#cmakedefine " else B "#mesondefine ".
Definition opening := if cmakevar then B "${" else B "@".
Definition closing := if cmakevar then B "}" else B "@".

Inductive conf_rel : bool -> bytes -> bytes -> Prop :=
| CR_end : forall bol, conf_rel bol [] []
| CR_byte : forall bol c r o,                        (* any other byte stands for itself *)
    ~ (bol = true /\ begins word (c :: r)) -> c <> BSLASH -> ~ begins opening (c :: r) ->
    conf_rel (ceqb c NL) r o -> conf_rel bol (c :: r) (c :: o)
| CR_backslashes : forall bol n r o,                 (* backslashes not before a marker stay *)
    ~ begins [BSLASH] r -> ~ begins opening r ->
    conf_rel false r o -> conf_rel bol (repeat BSLASH (S n) ++ r) (repeat BSLASH (S n) ++ o)
| CR_escaped : forall bol k r o,                     (* an odd number: halved, the marker is literal *)
    conf_rel false r o ->
    conf_rel bol (repeat BSLASH (2 * k + 1) ++ opening ++ r) (repeat BSLASH k ++ opening ++ o)
| CR_pairs : forall bol k r o,                       (* an even number: halved, the marker counts *)
    conf_rel false (opening ++ r) o ->
    conf_rel bol (repeat BSLASH (2 * S k) ++ opening ++ r) (repeat BSLASH (S k) ++ o)
| CR_variable : forall bol name r v t o,             (* a reference becomes the value *)
    name <> [] -> is_name name -> dict name = Some v -> shows v t ->
    conf_rel false r o -> conf_rel bol (opening ++ name ++ closing ++ r) (t ++ o)
| CR_marker : forall bol r o,                        (* a marker that opens no reference is literal *)
    (forall name r', is_name name -> r <> name ++ closing ++ r') ->
    conf_rel false r o -> conf_rel bol (opening ++ r) (opening ++ o)
| CR_define : forall ws name trail r t o,            (* a define line; only cmake allows more after the name *)
    Forall blank ws -> name <> [] -> is_name name ->
    Forall (fun c => c <> NL /\ c <> NUL) trail -> (forall c x, trail = c :: x -> name_char c = false) ->
    (cmakedefine = false -> Forall blank trail) -> end_of_line r ->
    defines name (dict name) t -> conf_rel false r o ->
    conf_rel true (word ++ ws ++ name ++ trail ++ r) (t ++ o)
| CR_nameless : forall ws c trail r t o,             (* cmake: no name, but something else on the line *)
    cmakedefine = true -> Forall blank ws -> ~ blank c -> name_char c = false ->
    Forall (fun c => c <> NL /\ c <> NUL) (c :: trail) -> end_of_line r ->
    defines [] (dict []) t -> conf_rel false r o ->
    conf_rel true (word ++ ws ++ c :: trail ++ r) (t ++ o).
End Rules.

(** The bytes a C string literal denotes; [None]: it is not a (plain) string literal.  Only the
    escapes for backslash and the two quotes are read; no other escape stands for itself. *)
Fixpoint c_body (l : bytes) : option bytes :=
  match l with
  | [] => None
  | c :: r =>
      if ceqb c DQUOTE then match r with [] => Some [] | _ => None end
      else if ceqb c NL then None
      else if ceqb c BSLASH then
        match r with
        | x :: r' => if ceqb x BSLASH || ceqb x DQUOTE || ceqb x QUOTE then option_map (cons x) (c_body r') else None
        | [] => None
        end
      else option_map (cons c) (c_body r)
  end.
Definition c_literal (l : bytes) : option bytes :=
  match l with c :: r => if ceqb c DQUOTE then c_body r else None | [] => None end.

(** the line a configuration entry becomes in a header generated without a template *)
Inductive header_line (prefix : ascii) (k : bytes) : cfg_value -> bytes -> Prop :=
| H_str : forall s, header_line prefix k (VStr s) (prefix :: B "define " ++ k ++ B " " ++ s ++ [NL])
| H_num : forall z, header_line prefix k (VNum z) (prefix :: B "define " ++ k ++ B " " ++ number_to_string z ++ [NL])
| H_true : header_line prefix k (VBool true) (prefix :: B "define " ++ k ++ [NL])
| H_false : header_line prefix k (VBool false) (prefix :: B "undef " ++ k ++ [NL]).
