(** Model of src/platform/path.c (POSIX build: src/platform/posix/path.c).
    C strings are byte lists; NUL bytes cannot occur inside a C string, so the model
    treats the end of the list as the terminating NUL. *)
From Verif Require Import Base.

Definition SEP : ascii := "/"%char.

(** posix/path.c 13-17 path_is_absolute *)
Definition path_is_absolute (p : bytes) : bool :=
  match p with
  | c :: _ => ceqb c SEP
  | [] => false
  end.

(** posix/path.c 19-23 path_is_basename *)
Definition path_is_basename (p : bytes) : bool := negb (mem_char SEP p).

(** path.c 105-109: the [for (i = (part - 2) - buf->buf; i > 0; --i)] scan for the
    previous separator; [buf] is the already processed prefix of the buffer. *)
Fixpoint back_scan (buf : bytes) (i : nat) : nat :=
  match i with
  | 0 => 0
  | S i' => if ceqb (nth i buf NUL) SEP then i else back_scan buf i'
  end.

(** path.c 105-115: index at which the component before '..' starts. *)
Definition pop_index (buf : bytes) : nat :=
  let i := back_scan buf (length buf - 2) in
  if ceqb (nth i buf NUL) SEP then S i else i.

(** path.c 88-134: the main loop of [_path_normalize].  The buffer is represented as the
    processed prefix [pre] (buf[0..part), whose length is the C variable [blen]) and the
    remaining text [rest] (from [part] on); the [memmove]s of the C code drop text
    between the two.  Running out of fuel is [None]. *)
Fixpoint norm_loop (fuel : nat) (optimize : bool) (parents : nat) (pre rest : bytes)
  : option bytes :=
  match fuel with
  | 0 => None
  | S fuel' =>
      match rest with
      | [] => Some pre                                             (* 88: !*part *)
      | _ =>
          let '(part, r) := break_at SEP rest in                   (* 89-95 *)
          let '(sepstr, rest') :=
            match r with [] => ([], []) | c :: r' => ([c], r') end in
          let skip_empty := beqb part [] || beqb part (B ".") in   (* 98 *)
          let '(parents', pre') :=
            if skip_empty then (parents, pre)                      (* 98-101 *)
            else if optimize && beqb part (B "..") then            (* 102 *)
              match parents with
              | S p => (p, firstn (pop_index pre) pre)             (* 104-118 *)
              | 0 => (0, pre ++ part ++ sepstr)                    (* 119-121 *)
              end
            else (S parents, pre ++ part ++ sepstr) in             (* 122-125 *)
          norm_loop fuel' optimize parents' pre' rest'
      end
  end.

(** path.c 136-144: final length / trailing separator fix-up. *)
Definition norm_finish (pre : bytes) : bytes :=
  match pre with
  | [] => B "."
  | _ => if (1 <? length pre) && ceqb (last pre NUL) SEP then removelast pre else pre
  end.

(** path.c 66-145 _path_normalize *)
Definition path_normalize (optimize : bool) (buf : bytes) : option bytes :=
  match buf with
  | [] => Some []                                                  (* 75-77 *)
  | c :: rest =>
      let '(pre, rest') := if ceqb c SEP then ([c], rest) else ([], buf) in  (* 82-86 *)
      match norm_loop (S (length rest')) optimize 0 pre rest' with
      | Some p => Some (norm_finish p)
      | None => None
      end
  end.

(** path.c 147-153 path_copy *)
Definition path_copy (p : bytes) : option bytes := path_normalize false p.

(** path.c 173-180 path_join_absolute *)
Definition path_join_absolute (a b : bytes) : option bytes :=
  match path_copy a with
  | Some a' => path_normalize false (a' ++ SEP :: b)
  | None => None
  end.

(** path.c 182-198 path_push; [sb] is the current buffer *)
Definition path_push (sb b : bytes) : option bytes :=
  if path_is_absolute b || beqb sb [] then path_copy b
  else match b with
       | [] => match path_normalize false sb with
               | Some s => Some (s ++ [SEP])
               | None => None
               end
       | _ => path_normalize false (sb ++ SEP :: b)
       end.

(** path.c 200-206 path_join *)
Definition path_join (a b : bytes) : option bytes :=
  match path_push [] a with
  | Some s => path_push s b
  | None => None
  end.

(** functions/kernel.c 1493-1527 func_join_paths (arguments already flattened and
    type-checked as strings) *)
Fixpoint join_paths_from (sb : bytes) (ps : list bytes) : option bytes :=
  match ps with
  | [] => Some sb
  | p :: ps' => match path_push sb p with
                | Some sb' => join_paths_from sb' ps'
                | None => None
                end
  end.
Definition join_paths (ps : list bytes) : option bytes := join_paths_from [] ps.

(** path.c 208-216 path_make_absolute; [cwd] is path_ctx.cwd *)
Definition path_make_absolute (cwd p : bytes) : option bytes :=
  if path_is_absolute p then path_copy p else path_join cwd p.

(** path.c 262-268: scan of the common prefix; result is (i, common_end) *)
Fixpoint common_scan (base path : bytes) (i common_end : nat) : nat * nat :=
  match base, path with
  | x :: base', y :: path' =>
      if ceqb x y
      then common_scan base' path' (S i) (if ceqb x SEP then i else common_end)
      else (i, common_end)
  | _, _ => (i, common_end)
  end.

(** path.c 286-297: one "../" per remaining component of base; [l] is the text of base
    after common_end+1; [have] is [have_part]. *)
Fixpoint dotdots (l : bytes) (have : bool) : bytes :=
  match l with
  | [] => []
  | c :: l' => (if have then B "../" else []) ++ dotdots l' (ceqb c SEP)
  end.

(** path.c 218-305 path_relative_to.  Both asserts (paths must be absolute) and running
    out of fuel are [None]. *)
Definition path_relative_to (base_raw path_raw : bytes) : option bytes :=
  match path_normalize true base_raw, path_normalize true path_raw with
  | Some base, Some path =>
      if negb (path_is_absolute base) || negb (path_is_absolute path) then None  (* 247-253 *)
      else if beqb base path then Some (B ".")                                  (* 257-260 *)
      else
        let '(i, ce0) := common_scan base path 0 0 in                           (* 262-268 *)
        let bi := nth i base NUL in
        let pi := nth i path NUL in
        let b_end := length base <=? i in
        let p_end := length path <=? i in
        let ce := if b_end && negb p_end && ceqb pi SEP then i                  (* 270-274 *)
                  else if p_end && negb b_end && ceqb bi SEP then i
                  else ce0 in
        if i =? 0 then None                                                     (* 276 assert *)
        else if i =? 1 then path_copy path                                      (* 277-281 *)
        else
          let dots := if (S ce) <? length base                                  (* 283-298 *)
                      then dotdots (skipn (S ce) base) true else [] in
          let tail := if ce <? length path then skipn (S ce) path else [] in    (* 300-302 *)
          path_normalize false (dots ++ tail)                                   (* 304 *)
  | _, _ => None
  end.

(** Index of the last separator, scanning from the end (path.c 323-330, 355-360, 385-398):
    [None] when there is none. *)
Fixpoint last_index (c : ascii) (l : bytes) (i : nat) (acc : option nat) : option nat :=
  match l with
  | [] => acc
  | x :: l' => last_index c l' (S i) (if ceqb x c then Some i else acc)
  end.

(** path.c 341-369 path_basename *)
Definition path_basename (p : bytes) : option bytes :=
  match p with
  | [] => Some []
  | _ => match path_copy p with
         | None => None
         | Some t =>
             let i := match last_index SEP t 0 None with Some j => S j | None => 0 end in
             path_normalize false (skipn i t)
         end
  end.

(** path.c 371-403 path_dirname *)
Definition path_dirname (p : bytes) : option bytes :=
  match p with
  | [] => Some (B ".")
  | _ => match path_copy p with
         | None => None
         | Some t =>
             match last_index SEP t 0 None with
             | Some 0 => path_normalize false (firstn 1 t)
             | Some i => path_normalize false (firstn i t)
             | None => Some (B ".")
             end
         end
  end.

(** path.c 307-339 path_without_ext: the extension dot is the last '.' after the last '/' *)
Definition path_without_ext (p : bytes) : option bytes :=
  match p with
  | [] => Some []
  | _ => match path_copy p with
         | None => None
         | Some t =>
             let dot := last_index "."%char t 0 None in
             let slash := last_index SEP t 0 None in
             let body :=
               match dot, slash with
               | Some d, Some sl => if sl <? d then Some (firstn d t) else path_copy t
               | Some d, None => Some (firstn d t)
               | None, _ => path_copy t
               end in
             match body with
             | Some b => path_normalize false b
             | None => None
             end
         end
  end.

(** path.c 419-444: the comparison loop of path_is_subpath; [prev] is sub[i-1]. *)
Fixpoint subpath_scan (base sub : bytes) (prev : ascii) : bool :=
  match base with
  | [] => match sub with
          | [] => true                       (* base[i] == sub[i] == 0 (or sub[i-1] is a separator) *)
          | c :: _ => ceqb c SEP || ceqb prev SEP
          end
  | x :: base' =>
      match sub with
      | y :: sub' => if ceqb x y then subpath_scan base' sub' y else false
      | [] => false
      end
  end.

(** path.c 405-445 path_is_subpath *)
Definition path_is_subpath (base sub : bytes) : option bool :=
  match base with
  | [] => Some false
  | _ => match path_copy base, path_copy sub with
         | Some b, Some s => Some (subpath_scan b s NUL)
         | _, _ => None
         end
  end.

(** path.c 447-458 path_executable *)
Definition path_executable (p : bytes) : option bytes :=
  if path_is_basename p then Some (B "./" ++ p) else path_copy p.
