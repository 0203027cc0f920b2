(** Project options: src/options.c, src/functions/kernel/options.c 18-235.

    The options of a workspace are kept in a heap, the dictionaries of the projects and the
    dictionary of global options hold their numbers.  Values are immutable here: that arrays are
    shared between options (src/options.c 448, src/functions/kernel/options.c 182) is not modelled.
    Warnings and error messages are not modelled. *)
From Coq Require Import ZArith.
From Verif Require Import Base M_Format M_Str M_Feature.

(** enum build_option_type, include/lang/object.h. *)
Inductive otype := OpString | OpBoolean | OpCombo | OpInteger | OpArray | OpFeature.
Definition otype_eqb (a b : otype) : bool :=
  match a, b with
  | OpString, OpString | OpBoolean, OpBoolean | OpCombo, OpCombo | OpInteger, OpInteger | OpArray, OpArray | OpFeature, OpFeature => true
  | _, _ => false
  end.

(** Values; [VOther] stands for all other objects (and the null object), numbered so that equal
    ones have the same number. *)
Inductive value :=
| VStr (s : bytes) | VBool (b : bool) | VNum (n : Z) | VFeature (f : state) | VArr (l : list value)
| VDisabler | VOther (n : nat).

(** obj_equal, src/lang/object.c 431-491.  That auto is resolved before features are compared is
    left out. *)
Fixpoint value_eqb (a b : value) : bool :=
  match a, b with
  | VStr s, VStr t => beqb s t
  | VBool x, VBool y => Bool.eqb x y
  | VNum m, VNum n => (m =? n)%Z
  | VFeature f, VFeature g => state_eqb f g
  | VArr l, VArr m =>
      (fix go (l m : list value) : bool :=
         match l, m with
         | [], [] => true
         | x :: l, y :: m => value_eqb x y && go l m
         | _, _ => false
         end) l m
  | VDisabler, VDisabler => true
  | VOther m, VOther n => m =? n
  | _, _ => false
  end.
(** obj_array_in, src/lang/object.c 627-631. *)
Definition array_in (l : list value) (v : value) : bool := existsb (value_eqb v) l.

(** enum option_value_source, include/lang/object.h 422-432. *)
Inductive source := SUnset | SDefault | SEnvironment | SYield | SDefaultOptions | SSubprojectDefaultOptions
  | SOverrideOptions | SDeprecatedRename | SCommandline.
Definition rank (s : source) : nat :=
  match s with
  | SUnset => 0 | SDefault => 1 | SEnvironment => 2 | SYield => 3 | SDefaultOptions => 4
  | SSubprojectDefaultOptions => 5 | SOverrideOptions => 6 | SDeprecatedRename => 7 | SCommandline => 8
  end.

(** The keyword deprecated: of option(), src/functions/kernel/options.c 83-89: a boolean, the name
    of another option, or values with (a dictionary) or without (an array) replacements. *)
Inductive deprecation := DBool (b : bool) | DRename (n : bytes) | DValues (l : list (bytes * option bytes)).

(** struct obj_option, include/lang/object.h 434-448. *)
Record opt := mkOpt {
  name : bytes; type : otype; choices : option (list value); min : option Z; max : option Z;
  depr : option deprecation; yield : bool; src : source; val : value }.
Definition with_src (s : source) (o : opt) : opt :=
  mkOpt (name o) (type o) (choices o) (min o) (max o) (depr o) (yield o) s (val o).
Definition with_val (v : value) (o : opt) : opt :=
  mkOpt (name o) (type o) (choices o) (min o) (max o) (depr o) (yield o) (src o) v.

(** struct option_override, include/options.h 11-17; its field obj_value is never set. *)
Record override := mkOverride { o_proj : option bytes; o_name : bytes; o_val : bytes; o_src : source }.

(** parse_config_string, src/options.c 38-94: [cur] are the bytes of the current part. *)
Fixpoint parse_loop (s : bytes) (reading_key : bool) (sub key : option bytes) (cur : bytes) : option (option bytes * bytes * bytes) :=
  match s with
  | [] => Some (sub, match key with Some k => k | None => [] end, cur)
  | c :: s =>
      if reading_key then
        if ceqb c ":"%char then
          match sub with
          | Some _ => None
          | None => parse_loop s true (Some cur) key []
          end
        else if ceqb c "="%char then parse_loop s false sub (Some cur) []
        else parse_loop s true sub key (cur ++ [c])
      else parse_loop s false sub key (cur ++ [c])
  end.
Definition parse_config_string (s : bytes) : option (option bytes * bytes * bytes) :=
  if mem_char NUL s then None
  else match parse_loop s true None None [] with
       | None => None
       | Some (sub, key, v) =>
           if length key =? 0 then None
           else match sub with
                | Some [] => None
                | _ => Some (sub, key, v)
                end
       end.

(** struct project, include/lang/workspace.h: what matters here. *)
Record project := mkProject { sub_name : option bytes; cfg_name : option bytes; popts : list (bytes * nat) }.

Record ws := mkWs { heap : list opt; glob : list (bytes * nat); projects : list project; overrides : list override }.
Definition with_heap (h : list opt) (w : ws) : ws := mkWs h (glob w) (projects w) (overrides w).
Definition with_overrides (l : list override) (w : ws) : ws := mkWs (heap w) (glob w) (projects w) l.
Definition change (id : nat) (f : opt -> opt) (w : ws) : ws :=
  match nth_error (heap w) id with Some o => with_heap (upd id (f o) (heap w)) w | None => w end.

(** obj_dict_index_strn, src/lang/object.c 1164-1190. *)
Fixpoint index (d : list (bytes * nat)) (k : bytes) : option nat :=
  match d with
  | [] => None
  | (k', v) :: d => if beqb k' k then Some v else index d k
  end.

(** get_option, src/options.c 585-605; [p] is the number of the project, if there is one. *)
Definition get_option (w : ws) (p : option nat) (n : bytes) : option nat :=
  match match p with Some p => match nth_error (projects w) p with Some pr => index (popts pr) n | None => None end | None => None end with
  | Some id => Some id
  | None => index (glob w) n
  end.

(** How an operation ends: [ok] is the result of the function; [Abort] is an assertion or an
    internal type error, [NoFuel] that it goes on for longer than the given number of steps. *)
Inductive out := Done (w : ws) (ok : bool) | Abort | NoFuel.

(** The C string of a string, for strtol. *)
Fixpoint c_str (s : bytes) : bytes :=
  match s with [] => [] | c :: s => if ceqb c NUL then [] else c :: c_str s end.

(** typecheck_opt, src/options.c 363-393; typecheck, src/lang/typecheck.c 252-348, lets disablers
    pass. *)
Definition typecheck_opt (t : otype) (v : value) : option value :=
  match t, v with
  | OpFeature, VStr s => option_map VFeature (coerce_feature s)
  | OpFeature, VFeature _ | OpString, VStr _ | OpBoolean, VBool _ | OpCombo, VStr _ | OpInteger, VNum _
  | OpArray, VArr _ | _, VDisabler => Some v
  | _, _ => None
  end.

(** The checks of set_option, src/options.c 503-546. *)
Inductive checked := COk (v : value) | CErr | CAbort.
Definition check (o : opt) (v : value) : checked :=
  match typecheck_opt (type o) v with
  | None => CErr
  | Some v =>
      match type o with
      | OpCombo =>
          match choices o with
          | None => CAbort
          | Some l => if array_in l v then COk v else CErr
          end
      | OpInteger =>
          match v with
          | VNum n =>
              if match max o with Some m => (m <? n)%Z | None => false end
                 || match min o with Some m => (n <? m)%Z | None => false end
              then CErr else COk v
          | _ => CAbort
          end
      | OpArray =>
          match choices o with
          | None => COk v
          | Some l => match v with VArr vs => if forallb (array_in l) vs then COk v else CErr | _ => CAbort end
          end
      | OpString | OpFeature | OpBoolean => COk v
      end
  end.

(** obj_array_index_of and obj_array_set: the first element equal to [old] is replaced. *)
Fixpoint replace_first (old new : value) (l : list value) : list value :=
  match l with
  | [] => []
  | x :: l => if value_eqb x old then new :: l else x :: replace_first old new l
  end.

(** check_deprecated_option_iter, src/options.c 203-231, over the values; [sval] is the string the
    option is set to and [res] the value so far. *)
Fixpoint deprecated_values (t : otype) (l : list (bytes * option bytes)) (sval : bytes) (res : option value) : option (option value) :=
  match l with
  | [] => Some res
  | (old, new) :: l =>
      match t with
      | OpArray =>
          match res with
          | Some (VArr a) =>
              deprecated_values t l sval
                (Some (VArr match new with Some n => replace_first (VStr old) (VStr n) a | None => a end))
          | _ => None
          end
      | _ =>
          deprecated_values t l sval
            (if beqb sval old then match new with Some n => Some (VStr n) | None => res end else res)
      end
  end.

(** How coerce_option_override ends. *)
Inductive coerced := KOk (w : ws) (v : value) | KErr (w : ws) | KAbort | KNoFuel.

Section Set_option.
(** eval_str in the mode of the REPL: the value of an array written in the language.  The text is
    taken to have no other effects. *)
Variable eval : bytes -> option value.
(** The number of the current project. *)
Variable p : option nat.

(** coerce_option_override, src/options.c 281-361, before the switch: an array is read first. *)
Definition early_array (t : otype) (s : bytes) : option (option value) :=
  match t with
  | OpArray =>
      match s with
      | [] => Some (Some (VArr []))
      | c :: _ =>
          if ceqb c "["%char then option_map Some (eval s)
          else option_map (fun l => Some (VArr (map VStr l))) (str_split (S (length s)) s (B ","))
      end
  | _ => Some None
  end.
(** src/options.c 316-358: the switch; [res] is the value so far. *)
Definition late (t : otype) (s : bytes) (res : option value) : option value :=
  match t with
  | OpCombo | OpString => Some (VStr s)
  | OpBoolean => if beqb s (B "true") then Some (VBool true) else if beqb s (B "false") then Some (VBool false) else None
  | OpInteger =>
      let '(n, rest) := strtol (c_str s) in
      if (length s =? 0) || negb (length rest =? 0) then None else Some (VNum n)
  | OpArray => res
  | OpFeature => option_map VFeature (coerce_feature s)
  end.
(** [set] sets another option to a string, src/options.c 257. *)
Definition coerce_option_override (set : ws -> nat -> bytes -> out) (w : ws) (o : opt) (sval : value) : coerced :=
  match sval with
  | VStr s =>
      match early_array (type o) s with
      | None => KErr w
      | Some res =>
          match depr o with
          | None => match late (type o) s res with Some v => KOk w v | None => KErr w end
          | Some d =>
              match
                match d with
                | DBool _ => (Done w true, Some res)
                | DRename n =>
                    (match get_option w p n with
                     | Some id => set w id s
                     | None =>
                         Done (with_overrides (overrides w ++
                           [mkOverride match p with Some p => match nth_error (projects w) p with Some pr => cfg_name pr | None => None end | None => None end
                              n s SDeprecatedRename]) w) true
                     end, Some res)
                | DValues l => (Done w true, deprecated_values (type o) l s res)
                end
              with
              | (Done w _, Some res) =>
                  match res with
                  | Some (VStr s) => match late (type o) s res with Some v => KOk w v | None => KErr w end
                  | Some v => KOk w v
                  | None => match late (type o) s res with Some v => KOk w v | None => KErr w end
                  end
              | (NoFuel, _) => KNoFuel
              | _ => KAbort
              end
          end
      end
  | _ => KAbort
  end.

(** set_option, src/options.c 451-550. *)
Fixpoint set_option (fuel : nat) (w : ws) (id : nat) (new_val : value) (s : source) (coerce : bool) : out :=
  match fuel with
  | O => NoFuel
  | S fuel =>
      match nth_error (heap w) id with
      | None => Abort
      | Some o =>
          if rank s <? rank (src o) then Done w true
          else
            let w := change id (with_src s) w in
            match
              (if coerce
               then coerce_option_override (fun w id t => set_option fuel w id (VStr t) SDeprecatedRename true) w (with_src s o) new_val
               else KOk w new_val)
            with
            | KOk w v =>
                match check o v with
                | COk v => Done (change id (with_val v) w) true
                | CErr => Done w false
                | CAbort => Abort
                end
            | KErr w => Done w false
            | KAbort => Abort
            | KNoFuel => NoFuel
            end
      end
  end.
End Set_option.

(** extend_array_option, src/options.c 437-449; obj_array_extend_nodup, src/lang/object.c
    690-712 (that the two arrays then share their tail is not modelled). *)
Definition extend_array_option (w : ws) (id : nat) (new_val : list value) (s : source) : out :=
  match nth_error (heap w) id with
  | None => Abort
  | Some o =>
      if rank s <? rank (src o) then Done w true
      else match val o with
           | VArr l => Done (change id (with_val (VArr (l ++ new_val))) (change id (with_src s) w)) true
           | _ => Abort
           end
  end.

(** The arguments of option(), src/functions/kernel/options.c 91-102. *)
Record decl := mkDecl {
  d_name : bytes; d_type : bytes; d_value : option value; d_choices : option (list value);
  d_max : option Z; d_min : option Z; d_yield : bool; d_depr : option deprecation }.

(** build_option_type_from_s, src/functions/kernel/options.c 18-40. *)
Definition type_of (s : bytes) : option otype :=
  if beqb s (B "string") then Some OpString
  else if beqb s (B "boolean") then Some OpBoolean
  else if beqb s (B "combo") then Some OpCombo
  else if beqb s (B "integer") then Some OpInteger
  else if beqb s (B "array") then Some OpArray
  else if beqb s (B "feature") then Some OpFeature
  else None.

(** validate_option_name, src/functions/kernel/options.c 42-62. *)
Definition validate_option_name (s : bytes) : bool :=
  forallb (fun c => is_lower c || is_upper c || is_digit c || ceqb c "-"%char || ceqb c "_"%char) s.

(** The table of valid keywords, src/functions/kernel/options.c 122-158: value, choices, max, min. *)
Inductive keyword_req := Opt | Req | Inv.
Definition keyword_validity (t : otype) : list keyword_req :=
  match t with
  | OpString => [Opt; Inv; Inv; Inv]
  | OpBoolean => [Opt; Inv; Inv; Inv]
  | OpCombo => [Opt; Req; Inv; Inv]
  | OpInteger => [Req; Inv; Opt; Opt]
  | OpArray => [Opt; Opt; Inv; Inv]
  | OpFeature => [Opt; Inv; Inv; Inv]
  end.
Definition given {A} (o : option A) : bool := match o with Some _ => true | None => false end.
Fixpoint keywords_ok (l : list keyword_req) (given : list bool) : bool :=
  match l, given with
  | r :: l, g :: given => match r with Opt => true | Req => g | Inv => negb g end && keywords_ok l given
  | _, _ => true
  end.

(** The default value, src/functions/kernel/options.c 160-194. *)
Definition default_value (t : otype) (d : decl) : option value :=
  match d_value d with
  | Some v => Some v
  | None =>
      match t with
      | OpString => Some (VStr [])
      | OpBoolean => Some (VBool true)
      | OpCombo => match d_choices d with Some (v :: _) => Some v | _ => None end
      | OpArray => match d_choices d with Some l => Some (VArr l) | None => Some (VArr []) end
      | OpFeature => Some (VFeature Auto)
      | OpInteger => None
      end
  end.

(** obj_dict_set of a name that is not there. *)
Definition add_option (w : ws) (p : option nat) (n : bytes) (o : opt) : ws :=
  let id := length (heap w) in
  let h := heap w ++ [o] in
  match p with
  | None => mkWs h (glob w ++ [(n, id)]) (projects w) (overrides w)
  | Some p =>
      match nth_error (projects w) p with
      | None => w
      | Some pr => mkWs h (glob w) (upd p (mkProject (sub_name pr) (cfg_name pr) (popts pr ++ [(n, id)])) (projects w)) (overrides w)
      end
  end.

(** func_option, src/functions/kernel/options.c 64-235, after interp_args, and create_option,
    src/options.c 552-583 (set_option of a new option with a value that is not coerced: 486-549).
    [p] is the current project; without projects a global option is created. *)
Definition declare (w : ws) (p : option nat) (d : decl) : out :=
  match type_of (d_type d) with
  | None => Done w false
  | Some t =>
      if keywords_ok (keyword_validity t) [given (d_value d); given (d_choices d); given (d_max d); given (d_min d)] then
        match default_value t d with
        | None => Done w false
        | Some v =>
            let o := mkOpt (d_name d) t (d_choices d) (d_min d) (d_max d) (d_depr d) (d_yield d) SDefault v in
            if match p with Some _ => validate_option_name (d_name d) | None => true end then
              match check o v with
              | COk v =>
                  if mem_char NUL (d_name d) || mem_char ":"%char (d_name d) then Done w false
                  else match get_option w p (d_name d) with
                       | Some _ => Done w false
                       | None => Done (add_option w p (d_name d) (with_val v o)) true
                       end
              | CErr => Done w false
              | CAbort => Abort
              end
            else Done w false
        end
      else Done w false
  end.

Section Configure.
Variable eval : bytes -> option value.

(** subproj_name_matches, src/options.c 96-104. *)
Definition name_matches (a b : option bytes) : bool :=
  match a, b with Some x, Some y => beqb y x | None, None => true | _, _ => false end.

(** setup_project_options, src/options.c 785-810: the overrides are applied; those that a renamed
    option appends are seen by the same loop. *)
Fixpoint setup_overrides (fuel : nat) (w : ws) (p : nat) (i : nat) (ok : bool) : out :=
  match fuel with
  | O => NoFuel
  | S f =>
      match nth_error (overrides w) i with
      | None => Done w ok
      | Some oo =>
          match nth_error (projects w) p with
          | None => Abort
          | Some pr =>
              if name_matches (sub_name pr) (o_proj oo) then
                match match index (popts pr) (o_name oo) with
                      | Some id => Some id
                      | None => if p =? 0 then index (glob w) (o_name oo) else None
                      end with
                | None => setup_overrides f w p (S i) false
                | Some id =>
                    match set_option eval (Some p) fuel w id (VStr (o_val oo)) (o_src oo) true with
                    | Done w r => setup_overrides f w p (S i) (ok && r)
                    | o => o
                    end
                end
              else setup_overrides f w p (S i) ok
          end
      end
  end.

(** set_yielding_project_options_iter, src/options.c 705-734, over the options of a subproject;
    the parent is the main project. *)
Fixpoint set_yielding (fuel : nat) (w : ws) (p : nat) (l : list (bytes * nat)) : out :=
  match l with
  | [] => Done w true
  | (_, id) :: l =>
      match nth_error (heap w) id with
      | None => Abort
      | Some o =>
          if negb (yield o) then set_yielding fuel w p l
          else match get_option w (Some 0) (name o) with
               | None => set_yielding fuel w p l
               | Some pid =>
                   match nth_error (heap w) pid with
                   | None => Abort
                   | Some po =>
                       if negb (otype_eqb (type po) (type o)) then set_yielding fuel w p l
                       else match set_option eval (Some p) fuel w id (val po) SYield false with
                            | Done w true => set_yielding fuel w p l
                            | o => o
                            end
                   end
               end
      end
  end.

(** parse_and_set_cmdline_option, src/options.c 858-868. *)
Definition cmdline_option (w : ws) (s : bytes) : out :=
  match parse_config_string s with
  | None => Done w false
  | Some (sub, k, v) => Done (with_overrides (overrides w ++ [mkOverride sub k v SCommandline]) w) true
  end.

(** parse_and_set_default_options, src/options.c 876-929; [for_subproject] is the name of a
    subproject, for default_options of subproject(), or nothing, for those of project(). *)
Fixpoint default_options (fuel : nat) (w : ws) (p : nat) (for_subproject : option bytes) (l : list bytes) : out :=
  match l with
  | [] => Done w true
  | s :: l =>
      match parse_config_string s with
      | None => Done w false
      | Some (sub, k, v) =>
          if given for_subproject || given sub then
            let pr := match sub with Some n => Some n | None => for_subproject end in
            default_options fuel (with_overrides (overrides w ++ [mkOverride pr k v SSubprojectDefaultOptions]) w) p for_subproject l
          else
            match get_option w (Some p) k with
            | None => Done w false
            | Some id =>
                match set_option eval (Some p) fuel w id (VStr v) SDefaultOptions true with
                | Done w true => default_options fuel w p for_subproject l
                | o => o
                end
            end
      end
  end.

(** parse_and_set_override_options, src/options.c 936-992: the new options are those of a target. *)
Fixpoint override_options (fuel : nat) (w : ws) (p : nat) (l : list bytes) (res : list (bytes * nat)) : out * list (bytes * nat) :=
  match l with
  | [] => (Done w true, res)
  | s :: l =>
      match parse_config_string s with
      | None => (Done w false, res)
      | Some (Some _, k, v) => (Done w false, res)
      | Some (None, k, v) =>
          match get_option w (Some p) k with
          | None => (Done w false, res)
          | Some id =>
              match nth_error (heap w) id with
              | None => (Abort, res)
              | Some o =>
                  match set_option eval (Some p) fuel (with_heap (heap w ++ [o]) w) (length (heap w)) (VStr v) SOverrideOptions true with
                  | Done w true =>
                      if given (index res (name o)) then (Done w false, res)
                      else override_options fuel w p l (res ++ [(name o, length (heap w) - 1)])
                  | o => (o, res)
                  end
              end
          end
      end
  end.
End Configure.
