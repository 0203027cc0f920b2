(** Model of configuration files: src/functions/kernel/configure_file.c 50-351 and
    src/functions/configuration_data.c 15-155. *)
From Verif Require Import Base M_Format.

(** configuration values, as far as the code distinguishes them *)
Inductive cfg_value := VStr (s : bytes) | VBool (b : bool) | VNum (z : Z) | VFile (path : bytes) | VOther.

(** configure_file.c 78-105: the two define words and the two variable markers *)
Record syntax := { is_cmakedefine : bool; define_word : bytes; varstart : bytes; varend : ascii }.
Definition mk_syntax (cmakedefine cmakevar : bool) : syntax :=
  {| is_cmakedefine := cmakedefine;
     define_word := if cmakedefine then B "#cmakedefine " else B "#mesondefine ";
     varstart := if cmakevar then B "${" else B "@";
     varend := if cmakevar then "}"%char else "@"%char |}.

(** 50-56 *)
Definition is_blank (c : ascii) : bool := ceqb c " "%char || ceqb c TAB.
Definition skip_ws (l : bytes) : bytes := dropw is_blank l.
(** 58-76 *)
Definition is_cfg_char (c : ascii) : bool := is_alnum c || ceqb c "_"%char || ceqb c "-"%char.
(** the C string starting at [l] ends at a NUL byte (the file's text is NUL-terminated) *)
Definition at_eol (l : bytes) : bool := match l with [] => true | c :: _ => ceqb c NL || ceqb c NUL end.
Definition to_eol (l : bytes) : bytes := dropw (fun c => negb (ceqb c NL || ceqb c NUL)) l.
Definition c_str (s : bytes) : bytes := fst (break_at NUL s).

(** coerce.c 171-200 coerce_string *)
Definition coerce_string (v : cfg_value) : option bytes :=
  match v with
  | VBool true => Some (B "true")
  | VBool false => Some (B "false")
  | VFile p => Some p
  | VNum z => Some (number_to_string z)
  | VStr s => Some s
  | VOther => None
  end.

(** 173-213: the replacement text of a define line; [None]: invalid type *)
Definition define_text (name : bytes) (v : option cfg_value) : option bytes :=
  let line deftype sub := Some (deftype ++ B " " ++ name ++ match sub with Some s => B " " ++ s | None => [] end) in
  match v with
  | None => line (B "/* undef") (Some (B "*/"))
  | Some (VBool b) => line (if b then B "#define" else B "#undef") None
  | Some (VStr s) => line (B "#define") (Some (c_str s))
  | Some (VNum z) => line (B "#define") (Some (number_to_string z))
  | Some _ => None
  end.

Inductive conf_result := COk (out : bytes) | CErr | CNoFuel.

(** 109-282.  [l] is the text from index [i] on, [bol] says whether [i = start_of_line]. *)
Fixpoint conf_loop (fuel : nat) (syn : syntax) (dict : bytes -> option cfg_value) (bol : bool) (l out : bytes) : conf_result :=
  match fuel with
  | 0 => CNoFuel
  | S f =>
      match l with
      | [] => COk out
      | c :: r =>
          if bol && starts_with (define_word syn) l then
            let l1 := skip_ws (skipn (length (define_word syn)) l) in
            let '(name, l2) := span is_cfg_char l1 in
            let l3 := skip_ws l2 in
            if negb (at_eol l3) && negb (is_cmakedefine syn) then CErr
            else
              let l4 := if at_eol l3 then l3
                        else if starts_with (B "@" ++ name ++ B "@") l3
                             then to_eol (skip_ws (skipn (2 + length name) l3))
                             else to_eol l3 in
              if length l4 =? length l1 then CErr               (* key of zero length *)
              else match define_text name (dict name) with
                   | None => CErr
                   | Some t => conf_loop f syn dict false l4 (out ++ t)
                   end
          else if ceqb c BSLASH then
            let '(bs, r') := span (fun x => ceqb x BSLASH) l in
            let j := length bs in
            if starts_with (varstart syn) r' then
              if Nat.odd j
              then conf_loop f syn dict false (skipn (length (varstart syn)) r') (out ++ repeat BSLASH (Nat.div2 j) ++ varstart syn)
              else conf_loop f syn dict false r' (out ++ repeat BSLASH (Nat.div2 j))
            else conf_loop f syn dict false r' (out ++ repeat BSLASH j)
          else if starts_with (varstart syn) l then
            let l1 := skipn (length (varstart syn)) l in
            let '(name, l2) := span is_cfg_char l1 in
            match l2 with
            | x :: r' =>
                if ceqb x (varend syn) then
                  match name with
                  | [] => CErr
                  | _ => match dict name with
                         | None => CErr
                         | Some v => match coerce_string v with
                                     | None => CErr
                                     | Some t => conf_loop f syn dict false r' (out ++ t)
                                     end
                         end
                  end
                else conf_loop f syn dict false l1 (out ++ varstart syn)
            | [] => conf_loop f syn dict false l1 (out ++ varstart syn)
            end
          else conf_loop f syn dict (ceqb c NL) r (out ++ [c])
      end
  end.
Definition substitute_config (syn : syntax) (dict : bytes -> option cfg_value) (l : bytes) : conf_result :=
  conf_loop (S (length l)) syn dict true l [].

(** 313-351 generate_config_iter, over the dictionary's entries in order; [None]: invalid type *)
Fixpoint generate_config (prefix : ascii) (d : list (bytes * cfg_value)) (out : bytes) : option bytes :=
  match d with
  | [] => Some out
  | (k, v) :: d' =>
      match v with
      | VStr s => generate_config prefix d' (out ++ prefix :: B "define " ++ c_str k ++ B " " ++ c_str s ++ [NL])
      | VBool true => generate_config prefix d' (out ++ prefix :: B "define " ++ c_str k ++ [NL])
      | VBool false => generate_config prefix d' (out ++ prefix :: B "undef " ++ c_str k ++ [NL])
      | VNum z => generate_config prefix d' (out ++ prefix :: B "define " ++ c_str k ++ B " " ++ number_to_string z ++ [NL])
      | _ => None
      end
  end.

(** configuration_data.c 15-49 *)
Fixpoint quote_body (s : bytes) : bytes :=
  match s with [] => [] | c :: s' => (if ceqb c DQUOTE then [BSLASH; c] else [c]) ++ quote_body s' end.
Definition set_quoted (s : bytes) : bytes := (DQUOTE :: quote_body (c_str s)) ++ [DQUOTE].
(** configuration_data.c 130-155 *)
Definition get_unquoted (v : bytes) : bytes :=
  let s := c_str v in
  let l := length s in
  if (2 <=? l) && ceqb (nth 0 s NUL) DQUOTE && ceqb (nth (l - 1) s NUL) DQUOTE
  then firstn (l - 2) (skipn 1 s) else v.
