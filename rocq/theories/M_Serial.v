(** Saving objects to files and loading them: src/lang/serial.c, and src/lang/object.c 1474-1697
    obj_clone.
    Structures have the layout of an LP64 little-endian machine.  Object ids are unbounded
    in a workspace; in the file they have 32 bits. *)
From Verif Require Import Base.
From Coq Require Import NArith.
Require Verif.M_Deps.
Notation le := M_Deps.le.
Notation unle := M_Deps.unle.

(** [Fail]: the function returns false; [Abort]: an assertion fails or abort() is called;
    [Outside]: memory outside of what was allocated is read; [Endless]: the recursion is deeper
    than [fuel] or a loop does not end *)
Inductive res (A : Type) := Ok (a : A) | Fail | Abort | Outside | Endless.
Arguments Ok {A}. Arguments Fail {A}. Arguments Abort {A}. Arguments Outside {A}. Arguments Endless {A}.
Definition bind {A C} (x : res A) (f : A -> res C) : res C :=
  match x with Ok a => f a | Fail => Fail | Abort => Abort | Outside => Outside | Endless => Endless end.
Notation "'do' x <- a ; b" := (bind a (fun x => b)) (at level 200, x pattern, a at level 100, b at level 200).
Definition or_abort {A} (x : option A) : res A := match x with Some a => Ok a | None => Abort end.

(** ** Workspaces *)
(** where the characters of a string are: in a bucket of wk->chrs at an offset, or in a block
    of their own, which includes the final NUL *)
Inductive place := InBucket (b off : N) | OnHeap (l : bytes).
(** an object together with the structure that belongs to it (object.h 137-, struct obj_internal
    and the arrays wk->obj_aos are not separated).
    [Simple]: types below _obj_aos_start, with the field val of struct obj_internal.
    [Rec]: types that obj_clone copies field by field, with the fields in memory order, padding
    included.  [Opaque]: all other types. *)
Inductive cell :=
| Simple (t v : N)
| Number (v : N)
| Str (p : place) (len flags : N)
| Arr (val next tail len : N) (have_next : bool)
| Dict (data len tail flags : N)
| Rec (t : N) (fs : list N)
| Opaque (t : N) (mem : bytes).
(** struct obj_dict_elem: next, key, val *)
Definition elem := (N * N * N)%type.
(** [chrs], [elems]: the buckets of wk->chrs (4096 bytes each) and wk->dict_elems (1024 elements
    each) up to their length; [hashes]: the keys and values of the tables in wk->dict_hashes, in
    the order of their keys; [strh]: wk->str_hash; [autof]: the value of the option auto_features
    if wk->global_opts is set *)
Record wk := Wk { chrs : list bytes; objs : list cell; elems : list (list elem);
                  hashes : list (list (N * N)); strh : list (bytes * N); autof : option N }.
Definition set_objs (x : list cell) (w : wk) := Wk (chrs w) x (elems w) (hashes w) (strh w) (autof w).
Definition set_chrs (x : list bytes) (w : wk) := Wk x (objs w) (elems w) (hashes w) (strh w) (autof w).
Definition set_elems (x : list (list elem)) (w : wk) := Wk (chrs w) (objs w) x (hashes w) (strh w) (autof w).
Definition set_strh (x : list (bytes * N)) (w : wk) := Wk (chrs w) (objs w) (elems w) (hashes w) x (autof w).
(** workspace.c 62-140 workspace_init_bare: object 0 is null and element 0 is reserved *)
Definition bare : wk := Wk [[]] [Simple 0 0] [[(0, 0, 0)%N]] [] [] None.

Definition CHRS_BUCKET : N := 4096.
Definition ELEMS_BUCKET : N := 1024.
(** bucket_arr.c 94-126 bucket_arr_pushn of items [l], without its assertion: the buckets, and
    the bucket and offset of the first item *)
Definition pushn {A} (size : N) (bs : list (list A)) (l : list A) : list (list A) * (N * N) :=
  let i := length bs - 1 in
  let b := nth i bs [] in
  if (size <? N.of_nat (length b + length l))%N
  then (bs ++ [l], (N.of_nat (length bs), 0%N))
  else (upd i (b ++ l) bs, (N.of_nat i, N.of_nat (length b))).
(** bucket_arr.c 134-144 bucket_arr_get; [None]: an assertion fails *)
Definition bget {A} (size : N) (bs : list (list A)) (i : N) : option A :=
  match nth_error bs (N.to_nat (i / size)) with
  | Some b => nth_error b (N.to_nat (i mod size))
  | None => None
  end.
Definition bset {A} (size : N) (bs : list (list A)) (i : N) (x : A) : list (list A) :=
  let n := N.to_nat (i / size) in
  upd n (upd (N.to_nat (i mod size)) x (nth n bs [])) bs.
(** the field len of a bucket array *)
Definition blen {A} (bs : list (list A)) : N := N.of_nat (length (concat bs)).

Definition get (w : wk) (o : N) : option cell := nth_error (objs w) (N.to_nat o).
Definition put (o : N) (c : cell) (w : wk) : wk := set_objs (upd (N.to_nat o) c (objs w)) w.
(** object.c 201-256 make_obj, with the contents of the object *)
Definition add (c : cell) (w : wk) : wk * N := (set_objs (objs w ++ [c]) w, N.of_nat (length (objs w))).

(** [len] bytes at [p]: buckets have 4096 bytes, those not in use are 0 *)
Definition chars (w : wk) (p : place) (len : N) : res bytes :=
  match p with
  | OnHeap l => if (len <=? N.of_nat (length l))%N then Ok (firstn (N.to_nat len) l) else Outside
  | InBucket b off =>
      match nth_error (chrs w) (N.to_nat b) with
      | None => Outside
      | Some l => if (off + len <=? CHRS_BUCKET)%N
                  then Ok (firstn (N.to_nat len) (skipn (N.to_nat off) (l ++ repeat NUL (N.to_nat CHRS_BUCKET))))
                  else Outside
      end
  end.
(** string.c get_str and the bytes of the string *)
Definition str (w : wk) (o : N) : res bytes :=
  match get w o with
  | Some (Str p len _) => chars w p len
  | _ => Abort
  end.

Fixpoint assoc (l : list (bytes * N)) (s : bytes) : option N :=
  match l with [] => None | (k, v) :: l' => if beqb k s then Some v else assoc l' s end.
Definition SMALL_STR_LEN : N := 64.
(** string.c 140-167 _make_str with mutable = false, 72-98 reserve_str; wk->obj_clear_mark_set is
    not set.  Lengths have no bound. *)
Definition make_str (w : wk) (s : bytes) : res (wk * N) :=
  let len := N.of_nat (length s) in
  let small := (len <=? SMALL_STR_LEN)%N in
  match (if small then assoc (strh w) s else None) with
  | Some o => Ok (w, o)
  | None =>
      let new_len := (len + 1)%N in
      do (w, c) <-
        (if (CHRS_BUCKET <? new_len)%N then Ok (w, Str (OnHeap (s ++ [NUL])) len 1)
         else if negb (new_len <? CHRS_BUCKET)%N then Abort (* bucket_arr.c 100 *)
         else let '(bs, (b, off)) := pushn CHRS_BUCKET (chrs w) (s ++ [NUL]) in
              Ok (set_chrs bs w, Str (InBucket b off) len 0));
      let '(w, o) := add c w in
      Ok ((if small then set_strh ((s, o) :: strh w) w else w), o)
  end.
(** string.c 245-250 *)
Definition str_clone (src dst : wk) (o : N) : res (wk * N) :=
  do s <- str src o; make_str dst s.

(** object.c 566-592 obj_array_push *)
Definition array_push (w : wk) (arr child : N) : res wk :=
  match get w arr with
  | Some (Arr v n t l h) =>
      if (l =? 0)%N then Ok (put arr (Arr child n arr 1 false) w)
      else
        let '(w, c) := add (Arr child 0 0 0 false) w in
        match get w t with
        | Some (Arr v' n' t' l' h') =>
            if h' then Abort
            else
              let w := put t (Arr v' c t' l' true) w in
              match get w arr with
              | Some (Arr v n t l h) => Ok (put arr (Arr v n c (l + 1) h) w)
              | _ => Abort
              end
        | _ => Abort
        end
  | _ => Abort
  end.

(** object.c 1184-1199 the walk of _obj_dict_index: the element whose key is [k] *)
Fixpoint dict_find (g : nat) (w : wk) (k : bytes) (e : N) : res (option N) :=
  match g with
  | 0 => Endless
  | S g =>
      do (n, key, v) <- or_abort (bget ELEMS_BUCKET (elems w) e);
      do s <- str w key;
      if beqb k s then Ok (Some e) else if (n =? 0)%N then Ok None else dict_find g w k n
  end.
(** object.c 1246-1336 obj_dict_set of a dictionary that is not big and has the flag
    obj_dict_flag_dont_expand *)
Definition dict_set (w : wk) (d key val : N) : res wk :=
  do k <- str w key;
  match get w d with
  | Some (Dict data len tail flags) =>
      if (key =? 0)%N then Abort
      else if (len =? 0)%N then
        let e := blen (elems w) in
        let w := set_elems (fst (pushn ELEMS_BUCKET (elems w) [(0%N, key, val)])) w in
        Ok (put d (Dict e 1 e flags) w)
      else
        do found <- dict_find (S (N.to_nat (blen (elems w)))) w k data;
        match found with
        | Some e =>
            do (n, key', _) <- or_abort (bget ELEMS_BUCKET (elems w) e);
            Ok (set_elems (bset ELEMS_BUCKET (elems w) e (n, key', val)) w)
        | None =>
            let e := blen (elems w) in
            let es := fst (pushn ELEMS_BUCKET (elems w) [(0%N, key, val)]) in
            do (_, k', v') <- or_abort (bget ELEMS_BUCKET es tail);
            let w := set_elems (bset ELEMS_BUCKET es tail (e, k', v')) w in
            Ok (put d (Dict data (len + 1) e flags) w)
        end
  | _ => Abort
  end.

(** ** obj_clone *)
(** how obj_clone copies a field: with obj_clone, with str_clone, with str_clone unless it is 0, as
    it is, or not at all *)
Inductive kind := KObj | KStr | KOpt | KRaw | KDrop.
(** the fields of the types that have the constructor [Rec], in the order of object.h, with their
    sizes, and the order in which obj_clone copies those that are objects *)
Definition schema (t : N) : option (list (kind * nat) * list nat) :=
  match t with
  | 18%N => (* struct obj_run_result; object.c 1681-1694 *)
      Some ([(KObj, 4); (KObj, 4); (KRaw, 4); (KRaw, 4)], [0; 1])
  | 19%N => (* struct obj_configuration_data; 1669-1678 *)
      Some ([(KObj, 4)], [0])
  | 20%N => (* struct obj_test; 1560-1598 *)
      Some ([(KStr, 4); (KStr, 4); (KObj, 4); (KObj, 4); (KObj, 4); (KOpt, 4); (KObj, 4); (KObj, 4); (KObj, 4);
             (KRaw, 1); (KRaw, 1); (KRaw, 1); (KRaw, 1); (KRaw, 4); (KRaw, 4)], [0; 1; 5; 2; 3; 4; 6; 7; 8])
  | 22%N => (* struct obj_install_target; 1599-1619 *)
      Some ([(KStr, 4); (KStr, 4); (KRaw, 1); (KDrop, 3); (KRaw, 4); (KObj, 4); (KObj, 4); (KRaw, 4); (KRaw, 1); (KDrop, 3)],
            [0; 1; 5; 6])
  | 23%N => (* struct obj_environment; 1620-1629 *)
      Some ([(KObj, 4)], [0])
  | 25%N => (* struct obj_option; 1630-1662: the field kind is not copied *)
      Some ([(KObj, 4); (KObj, 4); (KObj, 4); (KObj, 4); (KObj, 4); (KObj, 4); (KObj, 4);
             (KRaw, 4); (KRaw, 4); (KDrop, 4); (KRaw, 1); (KRaw, 1); (KDrop, 2)], [0; 1; 2; 3; 4; 5; 6])
  | _ => None
  end.
(** the new structure before its objects are copied.  obj_clone copies a struct obj_test or
    obj_run_result as a whole first, so that field workdir is copied if it is 0; the other
    objects are replaced, so they may be 0 here. *)
Definition raw_copy (sch : list (kind * nat)) (fs : list N) : list N :=
  map (fun '((k, _), v) => match k with KRaw => v | _ => 0%N end) (combine sch fs).

(** object.c 1478-1494 obj_clone_array_iter and 498-524 obj_array_foreach; [g] bounds the length of
    the chain *)
Fixpoint clone_array (cl : wk -> N -> res (wk * N)) (src : wk) (g : nat) (dst : wk) (arr v n : N) (h : bool) : res wk :=
  match g with
  | 0 => Endless
  | S g =>
      do (dst, x) <- cl dst v;
      do dst <- array_push dst arr x;
      if negb h then Ok dst
      else match get src n with
           | Some (Arr v n _ _ h) => clone_array cl src g dst arr v n h
           | _ => Abort
           end
  end.
(** 1496-1509 obj_clone_dict_iter *)
Definition clone_entry (cl : wk -> N -> res (wk * N)) (dst : wk) (d k v : N) : res wk :=
  do (dst, k) <- cl dst k;
  do (dst, v) <- cl dst v;
  dict_set dst d k v.
(** with 1074-1092 obj_dict_foreach *)
Fixpoint clone_elems (cl : wk -> N -> res (wk * N)) (src : wk) (g : nat) (dst : wk) (d : N) (e : N) : res wk :=
  match g with
  | 0 => Endless
  | S g =>
      do (n, k, v) <- or_abort (bget ELEMS_BUCKET (elems src) e);
      do dst <- clone_entry cl dst d k v;
      if (n =? 0)%N then Ok dst else clone_elems cl src g dst d n
  end.
(** with 1055-1072 obj_dict_foreach *)
Fixpoint clone_pairs (cl : wk -> N -> res (wk * N)) (ps : list (N * N)) (dst : wk) (d : N) : res wk :=
  match ps with
  | [] => Ok dst
  | (k, v) :: ps => do dst <- clone_entry cl dst d k v; clone_pairs cl ps dst d
  end.
Fixpoint clone_fields (cl : wk -> N -> res (wk * N)) (src : wk) (sch : list (kind * nat)) (fs : list N)
    (order : list nat) (dst : wk) (o : N) : res wk :=
  match order with
  | [] => Ok dst
  | i :: order =>
      let f := nth i fs 0%N in
      do (dst, x) <- match fst (nth i sch (KRaw, 0)) with
                     | KObj => cl dst f
                     | KStr => str_clone src dst f
                     | KOpt => if (f =? 0)%N then Ok (dst, 0%N) else str_clone src dst f
                     | _ => Ok (dst, f)
                     end;
      match get dst o with
      | Some (Rec t gs) => clone_fields cl src sch fs order (put o (Rec t (upd i x gs)) dst) o
      | _ => Abort
      end
  end.

(** object.c 1511-1697 obj_clone *)
Fixpoint clone (fuel : nat) (src dst : wk) (o : N) : res (wk * N) :=
  match fuel with
  | 0 => Endless
  | S f =>
      match get src o with
      | None => Fail (* 1514 *)
      | Some (Simple t v) =>
          if (t =? 0)%N then Ok (dst, 0%N)
          else if (t =? 4)%N then Ok (add (Simple 4 (if (v mod 256 =? 0)%N then 0 else 1)) dst)
          else if (t =? 5)%N then
            let '(dst, r) := add (Simple 5 0) dst in
            do (dst, s) <- str_clone src dst v;
            Ok (put r (Simple 5 s) dst, r)
          else if (t =? 6)%N then
            (* 136-156 get_obj_feature_opt *)
            let s := if (v =? 0)%N then match autof src with Some a => a | None => v end else v in
            Ok (add (Simple 6 s) dst)
          else Fail
      | Some (Number v) => Ok (add (Number v) dst)
      | Some (Str _ _ _) => str_clone src dst o
      | Some (Arr v n _ len h) =>
          let '(dst, r) := add (Arr 0 0 0 0 false) dst in
          if (len =? 0)%N then Ok (dst, r)
          else do dst <- clone_array (clone f src) src f dst r v n h; Ok (dst, r)
      | Some (Dict data len _ flags) =>
          (* the flag obj_dict_flag_dont_expand is set during the loop, then cleared *)
          let '(dst, r) := add (Dict 0 0 0 0) dst in
          if (len =? 0)%N then Ok (dst, r)
          else do dst <- (if N.testbit flags 0 then
                            do ps <- or_abort (nth_error (hashes src) (N.to_nat data));
                            clone_pairs (clone f src) ps dst r
                          else clone_elems (clone f src) src f dst r data);
               Ok (dst, r)
      | Some (Rec t fs) =>
          match schema t with
          | None => Fail
          | Some (sch, order) =>
              let '(dst, r) := add (Rec t (raw_copy sch fs)) dst in
              do dst <- clone_fields (clone f src) src sch fs order dst r;
              Ok (dst, r)
          end
      | Some (Opaque _ _) => Fail
      end
  end.

(** ** Writing *)
Definition serial_magic : bytes := B "muondump".
Definition serial_version : N := 7.
(** workspace.c 93-124: sizes of the structures of the types obj_clone does not know *)
Definition opaque_size (t : N) : option N :=
  match t with
  | 11 => Some 36 | 12 => Some 180 | 13 => Some 36 | 14 => Some 8 | 15 => Some 80 | 16 => Some 12 | 17 => Some 16
  | 21 => Some 12 | 24 => Some 8 | 26 => Some 20 | 27 => Some 16 | 28 => Some 8 | 29 => Some 8 | 30 => Some 8
  | 31 => Some 8 | 32 => Some 56 | 33 => Some 16
  | _ => None
  end%N.

(** serial.c 54-76 dump_bucket_arr; [item]: the bytes of an item *)
Definition dump_bucket_arr {A} (item : A -> bytes) (bs : list (list A)) : bytes :=
  le 4 (N.of_nat (length bs)) ++ flat_map (fun b => le 4 (N.of_nat (length b)) ++ flat_map item b) bs.
Definition elem_bytes (e : elem) : bytes := let '(n, k, v) := e in le 4 n ++ le 4 k ++ le 4 v.
(** 157-196 dump_big_strings: the strings with the flag str_flag_big in the order in which they
    were made *)
Fixpoint big_strings (cs : list cell) : bytes :=
  match cs with
  | [] => []
  | Str (OnHeap l) len fl :: cs => if N.testbit fl 0 then firstn (N.to_nat (len + 1)) l ++ big_strings cs else big_strings cs
  | _ :: cs => big_strings cs
  end.
Definition dump_big_strings (cs : list cell) : bytes :=
  let b := big_strings cs in le 8 (N.of_nat (length b)) ++ b.

Definition bool_n (b : bool) : N := if b then 1 else 0.
Definition fields_bytes (sch : list (kind * nat)) (fs : list N) : bytes :=
  flat_map (fun '((_, n), v) => le n v) (combine sch fs).
(** 260-323 dump_objs, one object; [off]: where the next big string is.
    bucket_arr.c 161-176 bucket_arr_lookup_pointer: a string is at 4096 * b + off, as a uint32_t
    plus an offset *)
Definition dump_obj (off : N) (c : cell) : bytes * N :=
  match c with
  | Simple t v => (le 1 t ++ le 4 v, off)
  | Number v => (le 1 7 ++ le 8 v, off)
  | Str p len fl =>
      let '(s, off') := match p with
                        | InBucket b o => ((b * CHRS_BUCKET) mod 2 ^ 32 + o, off)%N
                        | OnHeap _ => (off, off + len + 1)%N
                        end in
      (le 1 8 ++ le 8 s ++ le 8 len ++ le 4 fl ++ le 4 0, off')
  | Arr v n t l h => (le 1 9 ++ le 4 v ++ le 4 n ++ le 4 t ++ le 4 l ++ le 1 (bool_n h) ++ le 3 0, off)
  | Dict d l t fl => (le 1 10 ++ le 4 d ++ le 4 l ++ le 4 t ++ le 4 fl, off)
  | Rec t fs => (le 1 t ++ match schema t with Some (sch, _) => fields_bytes sch fs | None => [] end, off)
  | Opaque t m => (le 1 t ++ m, off)
  end.
Fixpoint dump_cells (off : N) (cs : list cell) : bytes :=
  match cs with
  | [] => []
  | c :: cs => let '(b, off) := dump_obj off c in b ++ dump_cells off cs
  end.
Definition dump_objs (cs : list cell) : bytes :=
  le 4 (N.of_nat (length cs - 1)) ++ dump_cells 0 (skipn 1 cs).
(** 402-432 serial_dump; writing to the file does not fail *)
Definition dump (fuel : nat) (src : wk) (o : N) : res bytes :=
  do (w, o) <- clone fuel src bare o;
  Ok (serial_magic ++ le 4 serial_version ++ le 4 o
      ++ dump_bucket_arr (fun c => [c]) (chrs w) ++ dump_big_strings (objs w)
      ++ dump_objs (objs w) ++ dump_bucket_arr elem_bytes (elems w)).

(** ** Reading; the file is represented by what is left of it *)
(** platform/filesystem.c 299-324 fs_fread *)
Definition fread (n : N) (f : bytes) : res (bytes * bytes) :=
  if (N.of_nat (length f) <? n)%N then Fail
  else Ok (firstn (N.to_nat n) f, skipn (N.to_nat n) f).
Definition load_uint (n : N) (f : bytes) : res (N * bytes) :=
  do (b, f) <- fread n f; Ok (unle b, f).
(** 123-155 load_serial_header *)
Definition load_header (f : bytes) : res (unit * bytes) :=
  do (b, f) <- fread 8 f;
  if negb (beqb b serial_magic) then Fail
  else do (v, f) <- load_uint 4 f;
       if negb (v =? serial_version)%N then Fail else Ok (tt, f).
(** 78-121 load_bucket_arr; [item]: reads an item *)
Fixpoint load_items {A} (item : bytes -> res (A * bytes)) (n : nat) (f : bytes) : res (list A * bytes) :=
  match n with
  | 0 => Ok ([], f)
  | S n => do (x, f) <- item f; do (l, f) <- load_items item n f; Ok (x :: l, f)
  end.
Definition load_bucket {A} (item : bytes -> res (A * bytes)) (size : N) (f : bytes) : res (list A * bytes) :=
  do (n, f) <- load_uint 4 f;
  if (size <? n)%N then Fail else load_items item (N.to_nat n) f.
Definition load_bucket_arr {A} (item : bytes -> res (A * bytes)) (size : N) (f : bytes) : res (list (list A) * bytes) :=
  do (n, f) <- load_uint 4 f; load_items (load_bucket item size) (N.to_nat n) f.
Definition load_char (f : bytes) : res (ascii * bytes) :=
  do (b, f) <- fread 1 f; Ok (hd NUL b, f).
Definition load_elem (f : bytes) : res (elem * bytes) :=
  do (n, f) <- load_uint 4 f; do (k, f) <- load_uint 4 f; do (v, f) <- load_uint 4 f; Ok ((n, k, v), f).
(** 203-229 load_big_strings *)
Definition load_big_strings (f : bytes) : res (bytes * bytes) :=
  do (n, f) <- load_uint 8 f;
  if (2 ^ 32 - 1 <? n)%N then Fail else fread n f.

(** 359-397 the string at [s] with the given length and flags; struct str has the length as
    a uint32_t *)
Definition load_str (cb : list bytes) (big : bytes) (s len fl : N) : res cell :=
  if N.testbit fl 0 then
    (* 236-258 get_big_string *)
    if (N.of_nat (length big) <=? s)%N then Fail
    else if (N.of_nat (length big) <? s + len)%N then Outside
    else Ok (Str (OnHeap (firstn (N.to_nat len) (skipn (N.to_nat s) big) ++ [NUL])) (len mod 2 ^ 32) fl)
  else
    let bucket_i := (s mod CHRS_BUCKET)%N in
    let buckets_i := ((s / CHRS_BUCKET) mod 2 ^ 32)%N in
    if (N.of_nat (length cb) <? buckets_i)%N then Fail
    else
      do b <- or_abort (nth_error cb (N.to_nat buckets_i));
      if (N.of_nat (length b) <? bucket_i)%N then Fail
      else
        let i := (s mod 2 ^ 32)%N in
        do _ <- or_abort (bget CHRS_BUCKET cb i);
        Ok (Str (InBucket (i / CHRS_BUCKET) (i mod CHRS_BUCKET)) (len mod 2 ^ 32) fl).
Fixpoint load_fields (sch : list (kind * nat)) (f : bytes) : res (list N * bytes) :=
  match sch with
  | [] => Ok ([], f)
  | (_, n) :: sch => do (v, f) <- load_uint (N.of_nat n) f; do (l, f) <- load_fields sch f; Ok (v :: l, f)
  end.
(** 325-400 load_objs, one object *)
Definition load_obj (cb : list bytes) (big : bytes) (f : bytes) : res (cell * bytes) :=
  do (t, f) <- load_uint 1 f;
  if (t <? 7)%N then do (v, f) <- load_uint 4 f; Ok (Simple t v, f)
  else if (34 <=? t)%N then Fail
  else if (t =? 7)%N then do (v, f) <- load_uint 8 f; Ok (Number v, f)
  else if (t =? 8)%N then
    do (s, f) <- load_uint 8 f; do (len, f) <- load_uint 8 f; do (fl, f) <- load_uint 4 f; do (_, f) <- load_uint 4 f;
    do c <- load_str cb big s len fl; Ok (c, f)
  else if (t =? 9)%N then
    do (v, f) <- load_uint 4 f; do (n, f) <- load_uint 4 f; do (tl, f) <- load_uint 4 f; do (l, f) <- load_uint 4 f;
    do (h, f) <- load_uint 1 f; do (_, f) <- load_uint 3 f;
    Ok (Arr v n tl l (negb (h =? 0)%N), f)
  else if (t =? 10)%N then
    do (d, f) <- load_uint 4 f; do (l, f) <- load_uint 4 f; do (tl, f) <- load_uint 4 f; do (fl, f) <- load_uint 4 f;
    Ok (Dict d l tl fl, f)
  else match schema t with
       | Some (sch, _) => do (fs, f) <- load_fields sch f; Ok (Rec t fs, f)
       | None => match opaque_size t with
                 | Some n => do (m, f) <- fread n f; Ok (Opaque t m, f)
                 | None => Abort
                 end
       end.
Definition load_objs (cb : list bytes) (big : bytes) (f : bytes) : res (list cell * bytes) :=
  do (n, f) <- load_uint 4 f; load_items (load_obj cb big) (N.to_nat n) f.
(** 434-474 serial_load up to the call of obj_clone: the workspace and the object to clone *)
Definition load_wk (f : bytes) : res ((wk * N) * bytes) :=
  do (_, f) <- load_header f;
  do (o, f) <- load_uint 4 f;
  do (cb, f) <- load_bucket_arr load_char CHRS_BUCKET f;
  do (big, f) <- load_big_strings f;
  do (cs, f) <- load_objs cb big f;
  do (es, f) <- load_bucket_arr load_elem ELEMS_BUCKET f;
  Ok ((Wk cb (Simple 0 0 :: cs) es [] [] None, o), f).
Definition load (fuel : nat) (w : wk) (f : bytes) : res (wk * N) :=
  do ((src, o), _) <- load_wk f; clone fuel src w o.
