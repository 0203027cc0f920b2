(** The formatter of build files: src/lang/fmt.c 25-993, 1149-1151, from the syntax tree that the parser makes in the formatter's
    mode (pm_keep_formatting, without pm_functions: no function definitions and no types of arguments) to the text.
    Reading the tree from the source, the configuration and the editorconfig are not modelled here.

    Simplifications.  The nodes are a tree; each carries the comments that the parser attached to it (struct node,
    comments).  The arguments are a list with a flag for the empty node that a trailing comma leaves at its end.  A chain
    of blocks is the list of its lines; blocks have no comments, since the parser attaches comments only to blocks that
    it drops.  Lengths and columns do not overflow.  Texts have no NUL bytes, names and numbers no newlines (the assertion
    of fmt_write). *)
From Verif Require Import Base M_Parser.

Definition comments := list bytes.
(** struct node, include/lang/parser.h 49-104.  Strings and numbers are their texts in the source.  [FArray] and [FDict]:
    the comments after the opening bracket, the arguments, whether there is a trailing comma, and the comments after the
    closing bracket.  [FParen]: likewise.  [FChain]: its first operand and its links (n->l and the chain of n->d). *)
Inductive fnode : Type :=
| FBool (b : bool) (c : comments)
| FStr (s : bytes) (c : comments)
| FId (x : bytes) (c : comments)
| FNum (s : bytes) (c : comments)
| FArray (o : comments) (l : list farg) (comma : bool) (c : comments)
| FDict (o : comments) (l : list farg) (comma : bool) (c : comments)
| FNot (a : fnode) (c : comments)
| FMinus (a : fnode) (c : comments)
| FArith (op : arithmetic_type) (a b : fnode) (c : comments)
| FCmp (op : comparison_type) (a b : fnode) (c : comments)
| FAnd (a b : fnode) (c : comments)
| FOr (a b : fnode) (c : comments)
| FTernary (q a b : fnode) (c : comments)
| FParen (o : comments) (a : fnode) (c : comments)
| FChain (h : fnode) (k : flink) (l : list flink)
(** an empty line or a comment on its own, a value, or a keyword argument or entry *)
with farg : Type := ALine (c : comments) | AVal (v : fnode) | AKw (k v : fnode)
with flink : Type :=
| KMethod (m : bytes) (mc : comments) (l : list farg) (comma : bool) (c : comments)
| KIndex (i : fnode) (c : comments)
| KCall (l : list farg) (comma : bool) (c : comments).

(** statements: [TLine] is node_empty_line.  A block that is node_empty can have comments. *)
Inductive fstmt : Type :=
| TLine (c : comments)
| TExpr (n : fnode)
| TAssign (x : bytes) (xc : comments) (n : fnode) (c : comments)
| TPlusAssign (x : bytes) (xc : comments) (n : fnode) (c : comments)
| TIf (q : fnode) (b : list fstmt) (bc : comments) (r : fclause) (c : comments)
| TForeach (x : bytes) (xc : comments) (y : option (bytes * comments)) (n : fnode) (b : list fstmt) (bc : comments) (c : comments)
| TContinue (c : comments)
| TBreak (c : comments)
with fclause : Type :=
| FNoClause
| FElif (q : fnode) (b : list fstmt) (bc : comments) (r : fclause)
| FElse (b : list fstmt) (bc : comments).

(** the options of struct fmt_ctx (fmt.c 38-41) *)
Record fopts := FOpts {
  space_array : bool; kwa_ml : bool; wide_colon : bool; no_single_comma : bool; max_line_len : N; indent_by : bytes }.
(** its other fields, with the contents of out_buf *)
Record fctx := Ctx { out : bytes; col : N; indent : nat; enclosed : nat; force_ml : bool; trailing : bool }.
Definition set_force b c := Ctx (out c) (col c) (indent c) (enclosed c) b (trailing c).
Definition set_trailing b c := Ctx (out c) (col c) (indent c) (enclosed c) (force_ml c) b.
Definition set_indent i c := Ctx (out c) (col c) i (enclosed c) (force_ml c) (trailing c).
Definition set_enclosed e c := Ctx (out c) (col c) (indent c) e (force_ml c) (trailing c).
(** struct fmt_stack, fmt.c 50-58.  [f_parent] are the comments of the node parent; of special_fmt the flag cmd_array is
    kept, the other two are only used by the call of fmt_args that follows; arg_container is passed to it too. *)
Record fst_ := Fst { f_sep : option bytes; f_write : bool; f_ml : bool; f_and_or : bool; f_cmd : bool; f_parent : comments }.
Definition with_sep s f := Fst s (f_write f) (f_ml f) (f_and_or f) (f_cmd f) (f_parent f).
Definition with_ml b f := Fst (f_sep f) (f_write f) b (f_and_or f) (f_cmd f) (f_parent f).
Definition with_and_or b f := Fst (f_sep f) (f_write f) (f_ml f) b (f_cmd f) (f_parent f).
Definition with_cmd b f := Fst (f_sep f) (f_write f) (f_ml f) (f_and_or f) b (f_parent f).
Definition with_parent p f := Fst (f_sep f) (f_write f) (f_ml f) (f_and_or f) (f_cmd f) p.
(** fmt.c 103-110 fmt_setup_fst *)
Definition setup (f : fst_) : fst_ := with_sep None f.

(** Every function returns a length and changes the context. *)
Definition F := fctx -> N * fctx.
Definition seq (a b : F) : F := fun c => let (n, c) := a c in let (m, c) := b c in ((n + m)%N, c).
Notation "a +> b" := (seq a b) (at level 60, right associativity).
Definition nothing : F := fun c => (0%N, c).
Definition upd_ctx (f : fctx -> fctx) : F := fun c => (0%N, f c).
(** a call whose length is not used *)
Definition uncounted (a : F) : F := fun c => let (_, c) := a c in (0%N, c).

Section FMT.
Variable o : fopts.

(** fmt.c 112-137 fmt_check *)
Definition fmt_check (func : fst_ -> F) (f : fst_) : F := fun c =>
  if negb (f_write f) then func f c
  else
    let old := force_ml c in
    let (len, c) := func (Fst (f_sep f) false false (f_and_or f) (f_cmd f) (f_parent f)) (set_force false c) in
    let ml := force_ml c || (max_line_len o <? len + col c)%N in
    let (len, c) := func (with_ml ml f) c in
    (len, set_force old c).

(** fmt.c 139-156 fmt_write *)
Definition width (ch : ascii) : N := if ceqb ch TAB then 8%N else 1%N.
Definition fmt_write (f : fst_) (ch : ascii) : F := fun c =>
  (width ch, if f_write f then Ctx (out c ++ [ch]) (col c + width ch)%N (indent c) (enclosed c) (force_ml c) (trailing c) else c).
(** fmt.c 178-186 fmt_writes *)
Fixpoint fmt_writes (f : fst_) (s : bytes) : F :=
  match s with [] => nothing | ch :: s => fmt_write f ch +> fmt_writes f s end.
(** fmt.c 158-176 fmt_writeml *)
Fixpoint fmt_writeml (f : fst_) (s : bytes) : F :=
  match s with
  | [] => nothing
  | ch :: s =>
      (if ceqb ch NL then
         upd_ctx (fun c => if f_write f then Ctx (out c ++ [NL]) 0 (indent c) (enclosed c) true (trailing c) else set_force true c)
       else fmt_write f ch) +> fmt_writeml f s
  end.
(** fmt.c 262-278 fmt_writef: at most 4095 bytes are written; tabs are counted as one column if nothing is written *)
Definition fmt_writef (f : fst_) (s : bytes) : F :=
  if f_write f then fmt_writes f (firstn (N.to_nat 4095) s) else fun c => (N.of_nat (length s), c).

(** fmt.c 188-215 fmt_newline; [blank]: next is an empty line without comments, or a block that begins with one *)
Definition fmt_newline (f : fst_) (blank : bool) : F := fun c =>
  let c := if f_ml f then set_trailing false c else c in
  if f_write f && f_ml f then
    let c := Ctx (out c ++ [NL]) 0 (indent c) (enclosed c) (force_ml c) (trailing c) in
    uncounted (if blank then nothing else fmt_writes f (concat (repeat (indent_by o) (indent c)))) c
  else (0%N, c).
(** fmt.c 217-224 fmt_newline_force *)
Definition fmt_newline_force (f : fst_) (blank : bool) : F := fmt_newline (with_ml true (setup f)) blank.
(** fmt.c 226-235 fmt_newline_or_space *)
Definition fmt_newline_or_space (f : fst_) (blank : bool) : F :=
  if f_ml f then fmt_newline f blank else fmt_write f " "%char.
(** fmt.c 237-247 fmt_breaking_space *)
Definition fmt_breaking_space (f : fst_) : F := fun c =>
  if (max_line_len o <=? col c)%N
  then (fmt_newline_force f false +> upd_ctx (set_force true)) c
  else fmt_write f " "%char c.
(** fmt.c 249-259 fmt_begin_block, fmt_end_block, and the counting of enclosed *)
Definition fmt_begin_block : F := upd_ctx (fun c => set_indent (S (indent c)) c).
Definition fmt_end_block : F := upd_ctx (fun c => set_indent (pred (indent c)) c).
Definition enter : F := upd_ctx (fun c => set_enclosed (S (enclosed c)) c).
Definition leave : F := upd_ctx (fun c => set_enclosed (pred (enclosed c)) c).

(** fmt.c 280-312 fmt_comments; [leading]: with a space before the first one *)
Fixpoint comment_lines (f : fst_) (cs : comments) (leading : bool) : F :=
  match cs with
  | [] => nothing
  | x :: cs' =>
      fmt_writef f ((if leading then B " " else []) ++ B "#" ++ x)
      +> match cs' with
         | [] => if f_write f then upd_ctx (set_trailing true) else nothing
         | _ => fmt_newline_force f false +> comment_lines f cs' false
         end
  end.
Definition fmt_comments (f : fst_) (cs : comments) (leading : bool) : F :=
  match cs with [] => nothing | _ => upd_ctx (set_force true) +> comment_lines f cs leading end.
(** fmt.c 314-324 fmt_check_trailing_comment_or_space *)
Definition fmt_comment_or_space (f : fst_) : F := fun c =>
  if trailing c then fmt_newline_force f false c else fmt_write f " "%char c.
(** fmt.c 326-337 fmt_tail *)
Definition fmt_tail (f : fst_) (cs : comments) : F :=
  match f_sep f with Some s => fmt_writes f s | None => nothing end +> fmt_comments f cs true.

(** struct arg_elem (fmt.c 25-28) with what is used of its nodes: how the key and the value are written, whether the key
    is the name command, whether the value is an empty line, whether it is a string that begins with '-', its text if
    it is a string; and of the next argument, whether it is an empty line without comments and whether it begins with '-' *)
Record item := Item {
  i_kw : option (fst_ -> F); i_command : bool; i_val : fst_ -> F; i_line : bool; i_dash : bool; i_str : option bytes;
  i_next_blank : bool; i_next_dash : bool }.
(** fmt.c 339-367 fmt_files_args_sort_cmp *)
Fixpoint strcmp (a b : bytes) : Z :=
  match a, b with
  | [], [] => 0
  | [], _ => -1
  | _, [] => 1
  | x :: a, y :: b => if ceqb x y then strcmp a b else if cval x <? cval y then -1 else 1
  end.
Definition sort_cmp (a b : item) : Z :=
  match i_str a, i_str b with
  | Some s, Some t =>
      match mem_char "/"%char s, mem_char "/"%char t with
      | true, true | false, false => strcmp s t
      | true, false => -1
      | false, true => 1
      end
  | Some _, None => -1
  | None, Some _ => 1
  | None, None => 0
  end.
(** qsort, which arr_sort (datastructures/arr.c 126-133) calls *)
Variable qsort : (item -> item -> Z) -> list item -> list item.

Definition some {A} (x : option A) : bool := match x with Some _ => true | None => false end.
(** fmt.c 446-512: the loop over the arguments.  [single]: args.len == 1; [paren], [cmd]: of pfst. *)
Fixpoint items_loop (f : fst_) (paren cmd single : bool) (l : list item) : F :=
  match l with
  | [] => nothing
  | x :: l' =>
      let last := match l' with [] => true | _ => false end in
      let f := with_cmd (some (i_kw x) && i_command x) f in
      match i_kw x with
      | Some k => k (with_sep (Some (if wide_colon o then B " : " else B ": ")) f)
      | None => nothing
      end
      +> (let comma := if i_line x then false
                       else if paren && no_single_comma o && single && negb (some (i_kw x)) then false
                       else negb (last && negb (f_ml f)) in
          fmt_check (i_val x) (with_sep (if comma then Some (B ",") else None) f))
      +> (if last then nothing
          else (if cmd && i_dash x && negb (i_next_dash x) then fmt_write f " "%char else fmt_newline_or_space f (i_next_blank x))
               +> items_loop f paren cmd single l')
  end.
(** fmt.c 369-525 fmt_args, from after the lookup of a lone array; [sorted]: special_fmt_sort_files; [comma]: there is a
    trailing comma *)
Definition fmt_args (opening : ascii) (sorted : bool) (l : list item) (comma : bool) (f : fst_) : F :=
  match l with
  | [] => nothing
  | _ =>
      let brack := ceqb opening "["%char && space_array o in
      let edge := if brack then uncounted (fmt_newline_or_space f false) else fmt_newline f false in
      enter +> fmt_begin_block +> edge
      +> (if existsb i_line l || comma then upd_ctx (set_force true) else nothing)
      +> (if (1 <? length (filter (fun x => some (i_kw x)) l)) && kwa_ml o then upd_ctx (set_force true) else nothing)
      +> (let l := if sorted then qsort sort_cmp l else l in
          items_loop f (ceqb opening "("%char) (f_cmd f) (length l =? 1) l)
      +> leave +> fmt_end_block +> edge
  end.
(** fmt.c 527-544 fmt_arg_container *)
Definition closing (opening : ascii) : ascii :=
  if ceqb opening "("%char then ")"%char else if ceqb opening "["%char then "]"%char else "}"%char.
Definition fmt_arg_container (opening : ascii) (sorted : bool) (l : list item) (comma : bool) (f : fst_) : F :=
  fmt_write (setup f) opening +> fmt_comments f (f_parent f) true +> fmt_args opening sorted l comma (setup f)
  +> fmt_write (setup f) (closing opening).

(** fmt.c 70-90 fmt_str_startwith, with "-" *)
Definition starts_dash (s : bytes) : bool :=
  let s := match s with c :: r => if ceqb c "f"%char then r else s | [] => s end in
  let s := if starts_with [QUOTE; QUOTE; QUOTE] s then skipn 3 s else skipn 1 s in
  starts_with (B "-") s.
Definition node_text (n : fnode) : option bytes := match n with FStr s _ => Some s | _ => None end.
Definition node_dash (n : fnode) : bool := match n with FStr s _ => starts_dash s | _ => false end.
Definition node_is (x : bytes) (n : fnode) : bool := match n with FId y _ => beqb x y | _ => false end.
Definition arg_dash (a : farg) : bool := match a with ALine _ => false | AVal v | AKw _ v => node_dash v end.
Definition arg_blank (a : farg) : bool := match a with ALine [] => true | _ => false end.
(** fmt.c 402-437: the elements; an empty line is written by its fmt_tail only *)
Definition items_of (write : fnode -> fst_ -> F) (line : comments -> fst_ -> F) : list farg -> list item :=
  fix go (l : list farg) : list item :=
    match l with
    | [] => []
    | a :: r =>
        let nb := match r with b :: _ => arg_blank b | [] => false end in
        let nd := match r with b :: _ => arg_dash b | [] => false end in
        match a with
        | ALine c => Item None false (line c) true false None nb nd
        | AVal v => Item None false (write v) false (node_dash v) (node_text v) nb nd
        | AKw k v => Item (Some (write k)) (node_is (B "command") k) (write v) false (node_dash v) (node_text v) nb nd
        end :: go r
    end.
(** fmt.c 563-589: the arguments of files() when a list is the only one *)
Definition lone_array (l : list farg) : option (list farg * bool) :=
  match l with [AVal (FArray _ l comma _)] => Some (l, comma) | _ => None end.

(** fmt.c 973-975, 991: what fmt_node does for an empty line *)
Definition fmt_line (c : comments) (f : fst_) : F := match f_sep f with Some s => fmt_writes f s | None => nothing end +> fmt_comments f c false.
(** fmt.c 768-785: the beginning of fmt_node; [f] is pfst *)
Definition after_comment (f : fst_) : F := fun c => if trailing c then fmt_newline_force f false c else (0%N, c).
Definition arith_sign (op : arithmetic_type) : ascii :=
  match op with arith_add => "+" | arith_sub => "-" | arith_mod => "%" | arith_mul => "*" | arith_div => "/" end%char.
Definition cmp_sign (op : comparison_type) : bytes :=
  match op with
  | comp_equal => B "==" | comp_nequal => B "!=" | comp_lt => B "<" | comp_le => B "<=" | comp_gt => B ">" | comp_ge => B ">="
  | comp_in => B "in" | comp_not_in => B "not in"
  end.

(** fmt.c 768-993 fmt_node for expressions, with fmt_and_or (744-766), fmt_parens (649-677), fmt_chain (710-742),
    fmt_function, fmt_method and fmt_function_common (546-602) *)
Fixpoint fmt_node (n : fnode) (f : fst_) {struct n} : F :=
  let g := setup f in
  let items := items_of fmt_node fmt_line in
  let and_or (a b : fnode) (word : bytes) : F := fun c =>
    let (l1, c) := fmt_check (fmt_node a) g c in
    let forced := (negb (enclosed c =? 0) && f_ml g) || f_and_or g in
    let g := if forced then with_and_or true g else g in
    let (l2, c) := (if forced then fmt_newline_force g false else fmt_writes g (B " ")) c in
    let (l3, c) := (fmt_writes g word +> fmt_check (fmt_node b) g) c in
    ((l1 + (l2 + l3))%N, c) in
  let link (files : bool) (k : flink) : F :=
    match k with
    | KMethod m mc l comma _ =>
        fmt_write f "."%char
        +> fmt_check (fun f => let g := setup f in
             fmt_writes g m +> fmt_arg_container "("%char false (items l) comma (with_parent mc g)) g
    | KIndex i _ =>
        fmt_write f "["%char +> enter +> fmt_check (fmt_node i) g +> leave +> fmt_write f "]"%char
    | KCall l comma _ =>
        fmt_check (fun f =>
          match (if files then lone_array l else None) with
          | Some _ =>
              match l with
              | [AVal (FArray _ l comma _)] => fmt_arg_container "("%char true (items l) comma (with_cmd false (setup f))
              | _ => nothing
              end
          | None => fmt_arg_container "("%char files (items l) comma (with_cmd false (setup f))
          end) g
    end in
  after_comment f +>
  match n with
  | FBool b c => fmt_writes g (if b then B "true" else B "false") +> fmt_tail f c
  | FStr s c => fmt_writeml g s +> fmt_tail f c
  | FId x c => fmt_writes g x +> fmt_tail f c
  | FNum s c => fmt_writes g s +> fmt_tail f c
  | FArray op l comma c => fmt_check (fmt_arg_container "["%char false (items l) comma) (with_parent op g) +> fmt_tail f c
  | FDict op l comma c => fmt_check (fmt_arg_container "{"%char false (items l) comma) (with_parent op g) +> fmt_tail f c
  | FNot a c => fmt_writes g (B "not ") +> fmt_node a g +> fmt_tail f c
  | FMinus a c => fmt_write g "-"%char +> fmt_node a g +> fmt_tail f c
  | FArith op a b c =>
      fmt_node a g +> fmt_comment_or_space g +> fmt_write g (arith_sign op) +> fmt_breaking_space g +> fmt_node b g +> fmt_tail f c
  | FCmp op a b c =>
      fmt_node a g +> fmt_comment_or_space g +> fmt_writef g (cmp_sign op ++ B " ") +> fmt_node b g +> fmt_tail f c
  | FAnd a b c => and_or a b (B "and ") +> fmt_tail f c
  | FOr a b c => and_or a b (B "or ") +> fmt_tail f c
  | FTernary q a b c =>
      fmt_node q g +> fmt_comment_or_space g +> fmt_writef g (B "? ") +> fmt_node a g +> fmt_comment_or_space g
      +> fmt_writef g (B ": ") +> fmt_node b g +> fmt_tail f c
  | FParen op a c =>
      fmt_check (fun f => let g := setup f in
        fmt_write g "("%char +> enter
        +> (if f_ml g then fmt_begin_block +> fmt_newline g false else nothing)
        +> fmt_comments g op false +> fmt_node a g
        +> (if f_ml g then fmt_end_block +> fmt_newline g false else nothing)
        +> leave +> fmt_write g ")"%char) g
      +> fmt_tail f c
  | FChain h k l =>
      let tail (k : flink) := match k with KMethod _ _ _ _ c | KIndex _ c | KCall _ _ c => fmt_tail f c end in
      fmt_node h g +> link (node_is (B "files") h) k
      +> (fix links (k : flink) (l : list flink) : F :=
            match l with
            | [] => tail k
            | k' :: l' => link false k' +> links k' l'
            end) k l
  end.

(** fmt.c 604-647 fmt_node_wrapped *)
Definition needs_paren (n : fnode) : bool :=
  match n with FChain _ _ _ | FArray _ _ _ _ | FDict _ _ _ _ | FParen _ _ _ | FStr _ _ | FNum _ _ => false | _ => true end.
Definition fmt_node_wrapped (n : fnode) (f : fst_) : F := fun c =>
  let g := setup f in
  let paren := needs_paren n && (enclosed c =? 0) && f_ml g in
  (if paren then enter +> fmt_write g "("%char +> fmt_begin_block +> fmt_newline g false +> fmt_node n g
                 +> leave +> fmt_end_block +> fmt_newline g false +> fmt_write g ")"%char
   else fmt_node n g) c.

(** fmt.c 810-866, 903-916: fmt_node for statements, and fmt_if (679-708) *)
Definition block_blank (b : list fstmt) : bool := match b with TLine [] :: _ => true | _ => false end.
Fixpoint fmt_stmt (st : fstmt) (f : fst_) {struct st} : F :=
  let g := setup f in
  (* node_block: [b] is not empty *)
  let lines := fix lines (b : list fstmt) (f : fst_) : F :=
    match b with
    | [] => nothing
    | st :: b' =>
        after_comment f +> fmt_check (fmt_stmt st) (setup f)
        +> match b' with [] => nothing | _ => uncounted (fmt_newline_force (setup f) (block_blank b') +> lines b' (setup f)) end
    end in
  let body (b : list fstmt) (bc : comments) : F :=
    match b with
    | [] => fmt_comments f bc true +> fmt_newline_force g false
    | _ => fmt_begin_block +> fmt_newline_force g (block_blank b) +> lines b g +> fmt_end_block +> fmt_newline_force g false
    end in
  match st with
  | TLine c => fmt_line c f
  | TExpr n => fmt_node n f
  | TAssign x xc n c =>
      after_comment f +> fmt_node (FId x xc) g +> fmt_comment_or_space g +> fmt_writes g (B "= ") +> fmt_node_wrapped n g +> fmt_tail f c
  | TPlusAssign x xc n c =>
      after_comment f +> fmt_node (FId x xc) g +> fmt_comment_or_space g +> fmt_writes g (B "+= ") +> fmt_node_wrapped n g +> fmt_tail f c
  | TIf q b bc r c =>
      let clause := fix clause (r : fclause) : F :=
        match r with
        | FNoClause => nothing
        | FElif q b bc r => fmt_writef g (B "elif ") +> fmt_check (fmt_node_wrapped q) g +> body b bc +> clause r
        | FElse b bc => fmt_writes g (B "else") +> body b bc
        end in
      after_comment f
      +> uncounted (fmt_writef g (B "if ") +> fmt_check (fmt_node_wrapped q) g +> body b bc +> clause r +> fmt_writes g (B "endif"))
      +> fmt_tail f c
  | TForeach x xc y n b bc c =>
      after_comment f
      +> uncounted (fmt_writes g (B "foreach ") +> fmt_node (FId x xc) g
           +> match y with Some (y, yc) => fmt_writes g (B ", ") +> fmt_node (FId y yc) g | None => nothing end
           +> fmt_writes g (B " : ") +> fmt_check (fmt_node_wrapped n) g +> body b bc +> fmt_writes g (B "endforeach"))
      +> fmt_tail f c
  | TContinue c => after_comment f +> fmt_writes g (B "continue") +> fmt_tail f c
  | TBreak c => after_comment f +> fmt_writes g (B "break") +> fmt_tail f c
  end.
Fixpoint fmt_lines (b : list fstmt) (f : fst_) : F :=
  match b with
  | [] => nothing
  | st :: b' =>
      after_comment f +> fmt_check (fmt_stmt st) (setup f)
      +> match b' with [] => nothing | _ => uncounted (fmt_newline_force (setup f) (block_blank b') +> fmt_lines b' (setup f)) end
  end.
(** fmt.c 1091-1172 fmt: the text for a whole file; [c] are the comments of the empty node if there are no lines *)
Definition fmt (b : list fstmt) (c : comments) : bytes :=
  let f := Fst None true false false false [] in
  out (snd ((match b with [] => fmt_tail f c | _ => fmt_lines b f end +> fmt_newline_force f false) (Ctx [] 0 0 0 false false))).
End FMT.
