(** Models of the string methods: src/lang/string.c and src/functions/string.c.

    A struct str is its bytes; the byte after the last one is NUL (string.c 82, 172) and is
    read by some of the code.  Lengths fit the C integer types. *)
From Verif Require Import Base.

(** string.c 320-328 str_startswith, 346-354 str_endswith *)
Definition str_startswith (ss pre : bytes) : bool :=
  if length ss <? length pre then false else beqb (firstn (length pre) ss) pre.
Definition str_endswith (ss suf : bytes) : bool :=
  if length ss <? length suf then false else beqb (skipn (length ss - length suf) ss) suf.

(** string.c 310-318 str_char_to_lower, 330-344 str_startswithi, 356-371 str_endswithi (which
    compares from the last byte backwards) *)
Definition char_to_lower (c : ascii) : ascii := if is_upper c then ch (cval c + 32) else c.
Fixpoint cmp_lower (a b : bytes) : bool :=      (* for i < length b *)
  match b, a with
  | [], _ => true
  | y :: b', x :: a' => ceqb (char_to_lower x) (char_to_lower y) && cmp_lower a' b'
  | _ :: _, [] => false
  end.
Definition str_startswithi (ss pre : bytes) : bool :=
  if length ss <? length pre then false else cmp_lower ss pre.
Definition str_endswithi (ss suf : bytes) : bool :=
  if length ss <? length suf then false else cmp_lower (rev ss) (rev suf).

(** functions/string.c 38-56 to_upper, 58-77 to_lower, 215-236 underscorify *)
Definition to_upper (s : bytes) : bytes := map (fun c => if is_lower c then ch (cval c - 32) else c) s.
Definition to_lower (s : bytes) : bytes := map (fun c => if is_upper c then ch (cval c + 32) else c) s.
Definition underscorify (s : bytes) : bytes :=
  map (fun c => if negb (is_lower c || is_upper c || is_digit c) then "_"%char else c) s.

(** string.c 421-468 str_split with a separator: [s] is ss->s[i..], [cur] is ss->s[start..i).
    [None]: the loop has not ended after [fuel] steps. *)
Fixpoint split_loop (fuel : nat) (sep s cur : bytes) (res : list bytes) : option (list bytes) :=
  match fuel with
  | 0 => None
  | S fuel' =>
      match s with
      | [] => Some (res ++ [cur])                                       (* 460-466 *)
      | c :: s' =>
          if str_startswith s sep
          then split_loop fuel' sep (skipn (length sep) s) [] (res ++ [cur])
          else split_loop fuel' sep s' (cur ++ [c]) res
      end
  end.
Definition str_split (fuel : nat) (s sep : bytes) : option (list bytes) := split_loop fuel sep s [] [].

(** strchr(whitespace, c) with whitespace = "\n\r\t ": also true for the NUL byte *)
Definition ws_strchr (c : ascii) : bool :=
  ceqb c NL || ceqb c CR || ceqb c TAB || ceqb c " "%char || ceqb c NUL.
(** string.c 443-458: str_split without a separator *)
Fixpoint split_ws_loop (fuel : nat) (s : bytes) (res : list bytes) : option (list bytes) :=
  match fuel with
  | 0 => None
  | S fuel' =>
      match s with
      | [] => Some res
      | _ => let s1 := dropw ws_strchr s in
             let '(w, s2) := span (fun c => negb (ws_strchr c)) s1 in
             split_ws_loop fuel' s2 (match w with [] => res | _ => res ++ [w] end)
      end
  end.
Definition str_split_ws (s : bytes) : option (list bytes) := split_ws_loop (S (length s)) s [].

(** object.c 744-788 obj_array_join over string elements: join_iter appends the element and,
    unless it is the last one, the separator *)
Fixpoint join_iter (sep : bytes) (l : list bytes) (i len : nat) (res : bytes) : bytes :=
  match l with
  | [] => res
  | x :: l' => let res := res ++ x in
               join_iter sep l' (S i) len (if i <? len - 1 then res ++ sep else res)
  end.
Definition str_array_join (sep : bytes) (l : list bytes) : bytes := join_iter sep l 0 (length l) [].

(** functions/string.c 457-498 replace: [pre] is the text since the last match *)
Fixpoint replace_loop (fuel : nat) (find repl s pre res : bytes) : option bytes :=
  match fuel with
  | 0 => None
  | S fuel' =>
      match s with
      | [] => Some (res ++ pre)
      | c :: s' =>
          if str_startswith s find
          then replace_loop fuel' find repl (skipn (length find) s) [] (res ++ pre ++ repl)
          else replace_loop fuel' find repl s' (pre ++ [c]) res
      end
  end.
Definition str_replace (fuel : nat) (s find repl : bytes) : option bytes := replace_loop fuel find repl s [] [].

(** functions/string.c 500-529 contains *)
Fixpoint str_contains (s find : bytes) : bool :=
  match s with
  | [] => false
  | _ :: s' => if str_startswith s find then true else str_contains s' find
  end.

(** string.c 470-481 str_has_chr *)
Fixpoint str_has_chr (c : ascii) (ss : bytes) : bool :=
  match ss with [] => false | x :: ss' => if ceqb x c then true else str_has_chr c ss' end.
(** string.c 492-496 *)
Fixpoint strip_start (strip s : bytes) (i : nat) : nat :=
  match s with
  | [] => i
  | c :: s' => if str_has_chr c strip then strip_start strip s' (S i) else i
  end.
(** string.c 498-506, for len = n - 1 downwards; the result is len + 1 *)
Fixpoint strip_end (strip s : bytes) (i n : nat) : nat :=
  match n with
  | 0 => 0
  | S len => if len <? i then n
             else if str_has_chr (nth len s NUL) strip then strip_end strip s i len else n
  end.
Definition default_strip : bytes := [" "%char; NL; TAB].
(** string.c 483-512 str_strip; [None]: the assertion in line 510 fails *)
Definition str_strip (s : bytes) (strip : option bytes) : option bytes :=
  let strip := match strip with Some x => x | None => default_strip end in
  let i := strip_start strip s 0 in
  let len := strip_end strip s i (length s) in
  if i <=? len then Some (firstn (len - i) (skipn i s)) else None.

(** functions/string.c 422-455 substring; [None] arguments are not given.  The result reads
    the string's memory (its bytes and the final NUL); an outer [None] means that bytes
    outside of it are read. *)
Definition str_substring (s : bytes) (a0 a1 : option Z) : option bytes :=
  let len := Z.of_nat (length s) in
  let start := match a0 with Some z => z | None => 0%Z end in
  let end_ := match a1 with Some z => z | None => len end in
  let start := (if start <? 0 then len + start else start)%Z in
  let end_ := (if end_ <? 0 then len + end_ else end_)%Z in
  let end_ := (if end_ <? start then start else end_)%Z in
  let off := Z.max 0 start in
  let n := Z.min (end_ - start) len in
  if (0 <=? off)%Z && (off + n <=? len + 1)%Z
  then Some (firstn (Z.to_nat n) (skipn (Z.to_nat off) (s ++ [NUL])))
  else None.

(** string.c 259-301 str_eql_glob_impl.  [fuel] bounds the recursion depth (pattern length)
    and the while loop (name length).  Reading ss2->s[i2] past the end gives NUL at
    i2 = len; the model answers [None] beyond that or when fuel runs out. *)
Section Glob.
Variable rec : bytes -> bytes -> option (option nat).    (* Some None: false; Some (Some m): true *)
(** 280-284: the first offset at which the rest of the pattern "matches", and its length *)
Fixpoint glob_while (fuel : nat) (sub1 sub2 : bytes) (consumed : nat) : option (nat * nat) :=
  match fuel with
  | 0 => None
  | S fuel' =>
      match rec sub1 sub2 with
      | None => None
      | Some (Some m) => Some (m, consumed)
      | Some None => match sub2 with
                     | [] => None
                     | _ :: sub2' => glob_while fuel' sub1 sub2' (S consumed)
                     end
      end
  end.
(** 272-298: [p] is ss1 from i1 on, [t] is ss2 from i2 on, [m] is *match_len *)
Fixpoint glob_for (fuel : nat) (p t : bytes) (m : nat) : option (option nat) :=
  match fuel with
  | 0 => None
  | S fuel' =>
      match p with
      | [] => Some (Some m)
      | c :: p' =>
          if ceqb c "*"%char then
            match glob_while (S (length t)) p' t 0 with
            | None => None
            | Some (sub, consumed) =>
                let sub := if sub =? 0 then 0 else sub + consumed in
                glob_for fuel' (skipn sub p') (skipn consumed t) (m + sub)
            end
          else match t with
               | [] => if ceqb c NUL then None else Some None
               | x :: t' => if ceqb c x then glob_for fuel' p' t' (S m) else Some None
               end
      end
  end.
End Glob.
Fixpoint glob_impl (depth : nat) (top : bool) (ss1 ss2 : bytes) : option (option nat) :=
  match depth with
  | 0 => None
  | S depth' =>
      match ss1 with
      | [] => if top then (match ss2 with [] => Some (Some 0) | _ => Some (Some 0) end)
              else Some (Some (length ss2))
      | _ => match ss2 with
             | [] => Some (Some 0)
             | _ => glob_for (glob_impl depth' false) (S (length ss1)) ss1 ss2 0
             end
      end
  end.
(** string.c 303-308 str_eql_glob *)
Definition str_eql_glob (pat name : bytes) : option bool :=
  match glob_impl (S (length pat)) true pat name with
  | None => None
  | Some None => Some false
  | Some (Some m) => Some (m =? length name)
  end.
