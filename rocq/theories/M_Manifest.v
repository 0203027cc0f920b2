(** Reading a build manifest: src/external/samurai/parse.c, with the rest of scan.c (the scanning of names,
    strings and paths is in M_Escape, variables in M_Env, search trees in M_Tree, paths in M_Canon).
    Statements that read other files (include, subninja) are not modelled, so there is one scope. *)
From Verif Require Import Base M_Tree M_Escape M_Env M_Canon M_Format.

(** [Exit]: samu_scanerror or samu_fatal; [Hang]: a loop that never ends; [Other]: not modelled *)
Inductive outcome (A : Type) := Ok (x : A) | Exit | Hang | Other | NoFuel.
Arguments Ok {A}. Arguments Exit {A}. Arguments Hang {A}. Arguments Other {A}. Arguments NoFuel {A}.
Definition bindm {A C} (m : outcome A) (f : A -> outcome C) : outcome C :=
  match m with Ok x => f x | Exit => Exit | Hang => Hang | Other => Other | NoFuel => NoFuel end.
Notation "'let*' p := a 'in' b" := (bindm a (fun p => b)) (at level 200, p pattern, a at level 100, b at level 200).
Definition lift {A} (o : option A) : outcome A := match o with Some x => Ok x | None => Exit end.

(** ** Scanner *)
(** scan.c 129-137 after the number sign: at the end of the file the loop goes on for ever *)
Fixpoint comment_loop (l : bytes) : outcome bytes :=
  match newline l with
  | None => Exit
  | Some (true, r) => Ok r
  | Some (false, _) => match l with [] => Hang | _ :: r => comment_loop r end
  end.
Definition comment (l : bytes) : outcome (option bytes) :=
  match l with
  | c :: r => if ceqb c "#" then (let* r := comment_loop r in Ok (Some r)) else Ok None
  | [] => Ok None
  end.
(** scan.c 350-360 samu_scanindent *)
Fixpoint scan_indent (fuel : nat) (l : bytes) : outcome (bool * bytes) :=
  match fuel with
  | 0 => NoFuel
  | S fuel =>
      let* (indent, l) := lift (space l) in
      let* c := comment l in
      match c with
      | Some l => scan_indent fuel l
      | None =>
          if indent then
            let* (nl, l') := lift (newline l) in
            Ok (negb nl, l')
          else Ok (false, l)
      end
  end.
(** scan.c 154-203 samu_scankeyword without the table lookup: the first word, or [None] at the end of the file *)
Fixpoint keyword (fuel : nat) (l : bytes) : outcome (option (bytes * bytes)) :=
  match fuel with
  | 0 => NoFuel
  | S fuel =>
      match l with
      | [] => Ok None
      | c :: _ =>
          if ceqb c " " then
            let* (_, l) := lift (space l) in
            let* m := comment l in
            match m with
            | Some l => keyword fuel l
            | None => let* (nl, l) := lift (newline l) in if (nl : bool) then keyword fuel l else Exit
            end
          else if ceqb c "#" then
            let* m := comment l in
            match m with Some l => keyword fuel l | None => Exit end
          else if ceqb c CR || ceqb c NL then
            let* (_, l) := lift (newline l) in keyword fuel l
          else if at_eof l then Ok None
          else let* x := lift (scan_name l) in Ok (Some x)
      end
  end.

(** ** Parser *)
(** parse.c 27-33 *)
Definition parselet (l : bytes) : outcome (list part * bytes) :=
  let* l := lift (scan_char "=" l) in
  let* (v, l) := lift (scan_string false l) in
  let* l := lift (scan_newline l) in
  Ok (v, l).
(** the loops of parse.c 45-57, 102-107 and 190-201; what is done with the variables comes afterwards here *)
Fixpoint lets (fuel : nat) (l : bytes) (acc : list (bytes * list part)) : outcome (list (bytes * list part) * bytes) :=
  match fuel with
  | 0 => NoFuel
  | S fuel =>
      let* (more, l) := scan_indent (S (length l)) l in
      if (more : bool) then
        let* (var, l) := lift (scan_name l) in
        let* (v, l) := parselet l in
        lets fuel l (acc ++ [(var, v)])
      else Ok (acc, l)
  end.

(** include/external/samurai/ctx.h 89-125; a node is its path *)
Record medge := MEdge {
  me_out : list bytes; me_outimp : nat;
  me_in : list bytes; me_inimp : nat; me_inorder : nat;
  me_rule : bytes; me_rulevars : tree (list part);
  me_own : scope; me_pool : option bytes }.
Record mstate := MState {
  ms_vars : scope; ms_rules : tree (tree (list part));
  ms_edges : list medge; ms_defaults : list bytes; ms_pools : tree Z }.
(** env.c 44-48: insertion never meets a broken tree *)
Definition insert {V} (t : tree V) (k : bytes) (v : V) : outcome (tree V * bool) :=
  match treeinsert t k v with
  | Some (t, old, _) => Ok (t, match old with Some _ => true | None => false end)
  | None => Other
  end.
Fixpoint inserts {V} (t : tree V) (kvs : list (bytes * V)) : outcome (tree V) :=
  match kvs with
  | [] => Ok t
  | (k, v) :: kvs => let* (t, _) := insert t k v in inserts t kvs
  end.

(** parse.c 35-63, env.c 125-130 *)
Definition parserule (st : mstate) (l : bytes) : outcome (mstate * bytes) :=
  let* (name, l) := lift (scan_name l) in
  let* l := lift (scan_newline l) in
  let* (vs, l) := lets (S (length l)) l [] in
  let has (n : bytes) := existsb (fun kv => beqb (fst kv) n && match snd kv with [] => false | _ => true end) vs in
  if negb (has (B "command")) then Exit
  else if negb (Bool.eqb (has (B "rspfile")) (has (B "rspfile_content"))) then Exit
  else
    let* r := inserts Leaf vs in
    let* (rules, old) := insert (ms_rules st) name r in
    if (old : bool) then Exit
    else Ok (MState (ms_vars st) rules (ms_edges st) (ms_defaults st) (ms_pools st), l).

(** graph.c 33-58: the nodes are those of the edges *)
Definition generated (es : list medge) (p : bytes) : bool := existsb (fun e => existsb (beqb p) (me_out e)) es.
Definition known (es : list medge) (p : bytes) : bool :=
  existsb (fun e => existsb (beqb p) (me_out e) || existsb (beqb p) (me_in e)) es.
(** parse.c 111-112, 129-130 and 169-170 *)
Fixpoint nodes (env : list scope) (ps : list (list part)) : outcome (list bytes) :=
  match ps with
  | [] => Ok []
  | p :: ps =>
      let* n := lift (canonpath (enveval env p)) in
      let* ns := nodes env ps in Ok (n :: ns)
  end.
(** parse.c 110-126; [acc] is e->out up to i *)
Fixpoint outputs (dupbuildwarn : bool) (es : list medge) (ps acc : list bytes) (outimp : nat) : outcome (list bytes * nat) :=
  match ps with
  | [] => Ok (acc, outimp)
  | p :: ps =>
      if generated es p || existsb (beqb p) acc then
        if negb dupbuildwarn then Exit
        else outputs dupbuildwarn es ps acc (if length acc <? outimp then outimp - 1 else outimp)
      else outputs dupbuildwarn es ps (acc ++ [p]) outimp
  end.
Definition var_edge (st : mstate) (e : medge) : M_Env.edge :=
  M_Env.Edge (me_in e) (me_inimp e) (me_out e) (me_outimp e) (me_own e) (me_rulevars e) [ms_vars st].
(** parse.c 65-140 *)
Definition parseedge (dupbuildwarn : bool) (st : mstate) (l : bytes) : outcome (mstate * bytes) :=
  let* (t, l) := lift (parse_edge l) in
  match treefind (ms_rules st) (e_rule t) with
  | None => Exit
  | Some r =>
      let* (vs, l) := lets (S (length l)) l [] in
      let* own := inserts Leaf (map (fun kv => (fst kv, enveval [ms_vars st] (snd kv))) vs) in
      let env := [own; ms_vars st] in
      let* outs := nodes env (e_outs t ++ e_outimp t) in
      let* (outs, outimp) := outputs dupbuildwarn (ms_edges st) outs [] (length (e_outs t)) in
      let* ins := nodes env (e_ins t ++ e_imp t ++ e_ord t) in
      let e p := MEdge outs outimp ins (length (e_ins t)) (length (e_ins t ++ e_imp t)) (e_rule t) r own p in
      let done p := Ok (MState (ms_vars st) (ms_rules st) (ms_edges st ++ [e p]) (ms_defaults st) (ms_pools st), l) in
      match edgevar (var_edge st (e None)) true (B "pool") with
      | Val None => done None
      | Val (Some v) => match treefind (ms_pools st) v with Some _ => done (Some v) | None => Exit end
      | Cycle _ => Exit
      | Fuel => NoFuel
      end
  end.
(** parse.c 159-178 *)
Definition parsedefault (st : mstate) (l : bytes) : outcome (mstate * bytes) :=
  let* (ps, l) := lift (scan_paths l) in
  let* ns := nodes [ms_vars st] ps in
  if negb (forallb (known (ms_edges st)) ns) then Exit
  else
    let* l := lift (scan_newline l) in
    Ok (MState (ms_vars st) (ms_rules st) (ms_edges st) (ms_defaults st ++ ns) (ms_pools st), l).
(** the value of a long as an int *)
Definition to_int (z : Z) : Z := ((z + 2147483648) mod 4294967296 - 2147483648)%Z.
(** parse.c 193-200 *)
Fixpoint depth (env : list scope) (vs : list (bytes * list part)) (d : Z) : outcome Z :=
  match vs with
  | [] => Ok d
  | (var, v) :: vs =>
      if beqb var (B "depth") then
        let '(n, rest) := strtol (enveval env v) in
        match rest with [] => depth env vs (to_int n) | _ => Exit end
      else Exit
  end.
(** parse.c 180-204, env.c 226-246: the pool is entered before its variables are read *)
Definition parsepool (st : mstate) (l : bytes) : outcome (mstate * bytes) :=
  let* (name, l) := lift (scan_name l) in
  let* (_, old) := insert (ms_pools st) name 0%Z in
  if (old : bool) then Exit
  else
    let* l := lift (scan_newline l) in
    let* (vs, l) := lets (S (length l)) l [] in
    let* d := depth [ms_vars st] vs 0%Z in
    if (d =? 0)%Z then Exit
    else
      let* (pools, _) := insert (ms_pools st) name d in
      Ok (MState (ms_vars st) (ms_rules st) (ms_edges st) (ms_defaults st) pools, l).
(** parse.c 206-215, include/external/samurai/parse.h: sscanf with "%d.%d" *)
Definition checkversion (v : bytes) : bool :=
  let number l := match strtol l with (n, r) => if length r <? length (dropw c_isspace l) then Some (n, r) else None end in
  match number v with
  | None => false
  | Some (major, r) =>
      let minor := match r with
                   | c :: r => if ceqb c "." then match number r with Some (n, _) => n | None => 0%Z end else 0%Z
                   | [] => 0%Z
                   end in
      negb ((1 <? major) || ((major =? 1) && (9 <? minor)))%Z
  end.
(** parse.c 246-252 *)
Definition parsevar (st : mstate) (var : bytes) (l : bytes) : outcome (mstate * bytes) :=
  let* (v, l) := parselet l in
  let val := enveval [ms_vars st] v in
  if beqb var (B "ninja_required_version") && negb (checkversion val) then Exit
  else
    let* (vars, _) := insert (ms_vars st) var val in
    Ok (MState vars (ms_rules st) (ms_edges st) (ms_defaults st) (ms_pools st), l).

(** parse.c 227-252 and the table of scan.c 157-168 *)
Definition statement (dupbuildwarn : bool) (st : mstate) (word l : bytes) : outcome (mstate * bytes) :=
  if beqb word (B "build") then parseedge dupbuildwarn st l
  else if beqb word (B "default") then parsedefault st l
  else if beqb word (B "include") then Other
  else if beqb word (B "pool") then parsepool st l
  else if beqb word (B "rule") then parserule st l
  else if beqb word (B "subninja") then Other
  else parsevar st word l.
(** parse.c 217-258 *)
Fixpoint statements (fuel : nat) (dupbuildwarn : bool) (st : mstate) (l : bytes) : outcome mstate :=
  match fuel with
  | 0 => NoFuel
  | S fuel =>
      let* k := keyword (S (length l)) l in
      match k with
      | None => Ok st
      | Some (word, l) =>
          let* (st, l) := statement dupbuildwarn st word l in
          statements fuel dupbuildwarn st l
      end
  end.
(** env.c 27-42 samu_envinit *)
Definition start : mstate :=
  MState Leaf (Node Leaf (B "phony") Leaf 1 Leaf) [] [] (Node Leaf (B "console") 1%Z 1 Leaf).
(** scan.c 20-35, parse.c 217-225: the first character of an empty file is NUL *)
Definition parse (fuel : nat) (dupbuildwarn : bool) (text : bytes) : outcome mstate :=
  match text with
  | [] => Exit
  | _ => statements fuel dupbuildwarn start text
  end.
(** parse.c 260-280 samu_defaultnodes: the newest edge comes first in alledges *)
Definition default_nodes (st : mstate) : list bytes :=
  match ms_defaults st with
  | [] =>
      concat (map (fun e => filter (fun p => negb (existsb (fun e' => existsb (beqb p) (me_in e')) (ms_edges st))) (me_out e))
        (rev (ms_edges st)))
  | ds => ds
  end.
