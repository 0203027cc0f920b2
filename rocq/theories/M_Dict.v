(** Model of the language's dictionaries, src/lang/object.c 1043-1438.

    A dictionary starts as a chain of elements in wk->dict_elems and becomes a hash table in
    wk->dict_hashes when it is set while it has 15 entries.  Keys are string objects: [str_of]
    gives the string of an object id, [str_eql] is str_eql (lang/string.c), and the table is
    that of M_Hash with comparison [keycmp] and hash function [hash_func].
    The 64-bit table value (key << 32 | value) is the pair of ids.  Lengths are unbounded.
    obj_dict_flag_int_key is never set in the code base, and obj_dict_flag_dont_expand only while
    obj_clone fills a new dictionary (see M_Serial.v), so the branches that test them are left
    out, and so are the integer-keyed entry points.
    [None]: a failed assertion, a null pointer dereference or an invalid id. *)
From Verif Require Import Base M_Hash.
Require Verif.M_Array.
Notation "'do' x <- a ; b" := (M_Array.bind a (fun x => b)) (at level 200, x pattern, a at level 100, b at level 200).
Notation assert := M_Array.assert.

(** include/lang/object.h 179-182 *)
Record elem := mkElem { enext : nat; ekey : nat; eval : nat }.
(** include/lang/object.h 184-188 *)
Record dict := mkDict { data : nat; dlen : nat; dtail : nat; big : bool }.

Section Dict.
Context {K : Type}.
Variable str_eql keycmp : K -> K -> bool.
Variable hash_func : K -> N.
Variable str_of : nat -> K.

(** the parts of the workspace dictionaries live in; element 0 is reserved (workspace.c 135) *)
Record world := mkWorld { elems : list elem; hashes : list (hash K (nat * nat)); dicts : list dict }.
Definition start_world : world := mkWorld [mkElem 0 0 0] [] [].

Definition set_elems (w : world) es := mkWorld es (hashes w) (dicts w).
Definition set_hashes (w : world) hs := mkWorld (elems w) hs (dicts w).
Definition put_dict (w : world) (i : nat) (d : dict) := mkWorld (elems w) (hashes w) (upd i d (dicts w)).
Definition get_dict (w : world) (i : nat) := nth_error (dicts w) i.
Definition get_elem (w : world) (i : nat) := nth_error (elems w) i.
Definition get_hash (w : world) (i : nat) := nth_error (hashes w) i.

(** object.c 201-256 make_obj *)
Definition make_dict (w : world) : world * nat :=
  (mkWorld (elems w) (hashes w) (dicts w ++ [mkDict 0 0 0 false]), length (dicts w)).

(** object.c 1061-1077 the hashed branch of obj_dict_foreach, from the [i]th key on.  The
    callbacks modelled here always return ir_cont. *)
Fixpoint big_loop {S} (cb : world -> S -> nat -> nat -> option (world * S)) (fuel : nat)
    (w : world) (st : S) (hidx i : nat) : option (world * S) :=
  do h <- get_hash w hidx;
  match nth_error (keys h) i with
  | None => Some (w, st)
  | Some k =>
      match fuel with
      | 0 => None
      | Datatypes.S fuel =>
          do r <- hash_get keycmp hash_func h k;
          do (key, val) <- r;                        (* NULL when the key was deleted *)
          do (w, st) <- cb w st key val;
          big_loop cb fuel w st hidx (i + 1)
      end
  end.
(** object.c 1079-1094 the chained branch *)
Fixpoint small_loop {S} (cb : world -> S -> nat -> nat -> option (world * S)) (fuel : nat)
    (w : world) (st : S) (e : nat) : option (world * S) :=
  match fuel with
  | 0 => None
  | Datatypes.S fuel =>
      do x <- get_elem w e;
      do (w, st) <- cb w st (ekey x) (eval x);
      do x <- get_elem w e;
      if enext x =? 0 then Some (w, st) else small_loop cb fuel w st (enext x)
  end.
(** object.c 1047-1098 obj_dict_foreach *)
Definition dict_foreach {S} (cb : world -> S -> nat -> nat -> option (world * S))
    (w : world) (i : nat) (st : S) : option (world * S) :=
  do d <- get_dict w i;
  if dlen d =? 0 then Some (w, st)
  else if big d then
    do h <- get_hash w (data d); big_loop cb (length (keys h)) w st (data d) 0
  else small_loop cb (length (elems w)) w st (data d).

(** object.c 1178-1192 the chained branch of _obj_dict_index: the element found *)
Fixpoint find_elem (fuel : nat) (w : world) (k : K) (e : nat) : option (option nat) :=
  match fuel with
  | 0 => None
  | S fuel =>
      do x <- get_elem w e;
      if str_eql (str_of (ekey x)) k then Some (Some e)
      else if enext x =? 0 then Some None else find_elem fuel w k (enext x)
  end.
Inductive found := Nowhere | InElem (e : nat) | InHash (key val : nat).
(** object.c 1153-1196 _obj_dict_index *)
Definition find_key (w : world) (i : nat) (k : K) : option found :=
  do d <- get_dict w i;
  if dlen d =? 0 then Some Nowhere
  else if big d then
    do h <- get_hash w (data d);
    do r <- hash_get keycmp hash_func h k;
    Some (match r with Some (key, val) => InHash key val | None => Nowhere end)
  else
    do r <- find_elem (length (elems w)) w k (data d);
    Some (match r with Some e => InElem e | None => Nowhere end).
(** object.c 1198-1216 obj_dict_index_strn, 1224-1229 obj_dict_index *)
Definition dict_index (w : world) (i : nat) (k : K) : option (option nat) :=
  do f <- find_key w i k;
  match f with
  | Nowhere => Some None
  | InElem e => do x <- get_elem w e; Some (Some (eval x))
  | InHash _ v => Some (Some v)
  end.

(** object.c 1272-1289 filling the new table from the chain *)
Fixpoint expand_loop (fuel : nat) (w : world) (h : hash K (nat * nat)) (e : nat)
    : option (hash K (nat * nat)) :=
  match fuel with
  | 0 => None
  | S fuel =>
      do x <- get_elem w e;
      do h <- hash_set keycmp hash_func h (str_of (ekey x)) (ekey x, eval x);
      if enext x =? 0 then Some h else expand_loop fuel w h (enext x)
  end.
(** object.c 1258-1291 switching to the hashed representation *)
Definition expand (w : world) (i : nat) : option world :=
  do d <- get_dict w i;
  if negb (big d) && (15 <=? dlen d) then
    let h_idx := length (hashes w) in
    do h <- expand_loop (length (elems w)) w (hash_init 16) (data d);
    let w := set_hashes w (hashes w ++ [h]) in
    Some (put_dict w i (mkDict h_idx (dlen d) 0 true))
  else Some w.

(** object.c 1299 writing through the pointer hash_get returned *)
Definition hash_assign (h : hash K (nat * nat)) (k : K) (v : nat * nat) : option (hash K (nat * nat)) :=
  do i <- probe keycmp hash_func h k;
  match slot_at h i with SFull m _ ki => Some (set_slot h i (SFull m v ki)) | _ => None end.

(** object.c 1238-1328 _obj_dict_set, 1330-1337 obj_dict_set *)
Definition dict_set (w : world) (i : nat) (key val : nat) : option world :=
  do d <- get_dict w i;
  do _ <- assert (negb (key =? 0));
  if dlen d =? 0 then
    let e_idx := length (elems w) in
    let w := set_elems w (elems w ++ [mkElem 0 key val]) in
    Some (put_dict w i (mkDict e_idx (dlen d + 1) e_idx (big d)))
  else
    do w <- expand w i;
    do f <- find_key w i (str_of key);
    do d <- get_dict w i;
    match f with
    | InElem e =>
        do x <- get_elem w e;
        Some (set_elems w (upd e (mkElem (enext x) (ekey x) val) (elems w)))
    | InHash _ _ =>
        do h <- get_hash w (data d);
        do h <- hash_assign h (str_of key) (key, val);
        Some (set_hashes w (upd (data d) h (hashes w)))
    | Nowhere =>
        if big d then
          do h <- get_hash w (data d);
          do h <- hash_set keycmp hash_func h (str_of key) (key, val);
          let w := set_hashes w (upd (data d) h (hashes w)) in
          Some (put_dict w i (mkDict (data d) (len h) (dtail d) (big d)))
        else
          let e_idx := length (elems w) in
          let w := set_elems w (elems w ++ [mkElem 0 key val]) in
          do t <- get_elem w (dtail d);
          let w := set_elems w (upd (dtail d) (mkElem e_idx (ekey t) (eval t)) (elems w)) in
          Some (put_dict w i (mkDict (data d) (dlen d + 1) e_idx (big d)))
    end.

(** object.c 1362-1378 the search of _obj_dict_del: the element before, and the one found *)
Fixpoint del_find (fuel : nat) (w : world) (k : K) (prev cur : nat) : option (option (nat * nat)) :=
  match fuel with
  | 0 => None
  | S fuel =>
      do x <- get_elem w cur;
      if str_eql (str_of (ekey x)) k then Some (Some (prev, cur))
      else if enext x =? 0 then Some None else del_find fuel w k cur (enext x)
  end.
(** object.c 1339-1399 _obj_dict_del *)
Definition dict_del (w : world) (i : nat) (k : K) : option world :=
  do d <- get_dict w i;
  if dlen d =? 0 then Some w
  else if big d then
    do h <- get_hash w (data d);
    do h <- hash_unset keycmp hash_func h k;
    Some (set_hashes w (upd (data d) h (hashes w)))
  else
    do r <- del_find (length (elems w)) w k 0 (data d);
    match r with
    | None => Some w
    | Some (prev, cur) =>
        do e <- get_elem w cur;
        if cur =? data d then
          Some (put_dict w i (mkDict (enext e) (dlen d - 1) (dtail d) (big d)))
        else
          do p <- get_elem w prev;
          if negb (enext e =? 0) then
            let w := set_elems w (upd prev (mkElem (enext e) (ekey p) (eval p)) (elems w)) in
            Some (put_dict w i (mkDict (data d) (dlen d - 1) (dtail d) (big d)))
          else
            let w := set_elems w (upd prev (mkElem 0 (ekey p) (eval p)) (elems w)) in
            Some (put_dict w i (mkDict (data d) (dlen d - 1) prev (big d)))
    end.

(** object.c 1102-1108 obj_dict_dup_iter, 1118-1126 obj_dict_merge_iter *)
Definition set_iter (w : world) (i key val : nat) : option (world * nat) :=
  do w <- dict_set w i key val; Some (w, i).
(** object.c 1110-1116 obj_dict_dup *)
Definition dict_dup (w : world) (i : nat) : option (world * nat) :=
  let '(w, r) := make_dict w in dict_foreach set_iter w i r.
(** object.c 1128-1132 obj_dict_merge_nodup *)
Definition merge_nodup (w : world) (i j : nat) : option world :=
  do (w, _) <- dict_foreach set_iter w j i; Some w.
(** object.c 1134-1139 obj_dict_merge *)
Definition dict_merge (w : world) (i j : nat) : option (world * nat) :=
  do (w, r) <- dict_dup w i; do w <- merge_nodup w r j; Some (w, r).

(** what iteration shows: functions/dict.c 14-35 dict.keys(), and foreach *)
Definition entries_iter (w : world) (l : list (K * nat)) (key val : nat) : option (world * list (K * nat)) :=
  Some (w, l ++ [(str_of key, val)]).
Definition entries (w : world) (i : nat) : option (list (K * nat)) :=
  do (_, l) <- dict_foreach entries_iter w i []; Some l.
Definition dict_len (w : world) (i : nat) : option nat := do d <- get_dict w i; Some (dlen d).

(** ** Calls; dictionaries are numbered in the order they are made *)
Inductive call :=
| New | Put (d key val : nat) | Get (d key : nat) | Delete (d key : nat) | Dup (d : nat)
| Merge (a b : nat) | MergeInto (a b : nat) | Entries (d : nat) | Length (d : nat).
Inductive answer := ANone | AVal (v : option nat) | AEntries (l : list (K * nat)) | ANum (n : nat).

Definition step (w : world) (c : call) : option (world * answer) :=
  match c with
  | New => Some (fst (make_dict w), ANone)
  | Put d k v => do w <- dict_set w d k v; Some (w, ANone)
  | Get d k => do r <- dict_index w d (str_of k); Some (w, AVal r)
  | Delete d k => do w <- dict_del w d (str_of k); Some (w, ANone)
  | Dup d => do (w, _) <- dict_dup w d; Some (w, ANone)
  | Merge a b => do (w, _) <- dict_merge w a b; Some (w, ANone)
  | MergeInto a b => do w <- merge_nodup w a b; Some (w, ANone)
  | Entries d => do l <- entries w d; Some (w, AEntries l)
  | Length d => do n <- dict_len w d; Some (w, ANum n)
  end.
Fixpoint run (w : world) (cs : list call) : option (world * list answer) :=
  match cs with
  | [] => Some (w, [])
  | c :: cs => do (w, r) <- step w c; do (w, rs) <- run w cs; Some (w, r :: rs)
  end.
End Dict.
Arguments world : clear implicits.
Arguments answer : clear implicits.
