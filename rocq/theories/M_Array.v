(** Model of the language's arrays, src/lang/object.c 493-1041.

    An array is a chain of cells.  A cell is addressed by the object id of the array object it
    belongs to; here the heap is a list of cells and the id is the position in that list.
    Elements are object ids, which the array code never looks into except through
    [obj_equal] and [get_str]: these two are section variables.
    Simplifications: lengths and ids are unbounded; the heap holds array objects only.
    [None] is a failed assertion, an invalid id, or a walk that is longer than the heap, which
    happens only on a cyclic chain (the C loop then never ends). *)
From Verif Require Import Base M_Format.

(** include/lang/object.h 165-171 *)
Record cell := mkCell { val : nat; next : nat; tail : nat; len : nat; have_next : bool }.
Definition heap := list cell.

(** object.c 201-256 make_obj: bucket_arr_pushn hands out zeroed memory *)
Definition zero_cell : cell := mkCell 0 0 0 0 false.
Definition make_array (h : heap) : heap * nat := (h ++ [zero_cell], length h).

(** object.c 90-97 get_obj_array *)
Definition get (h : heap) (i : nat) : option cell := nth_error h i.
Definition put (h : heap) (i : nat) (c : cell) : heap := upd i c h.

Definition set_val (v : nat) (c : cell) := mkCell v (next c) (tail c) (len c) (have_next c).
Definition set_next (n : nat) (c : cell) := mkCell (val c) n (tail c) (len c) (have_next c).
Definition set_tail (t : nat) (c : cell) := mkCell (val c) (next c) t (len c) (have_next c).
Definition set_len (n : nat) (c : cell) := mkCell (val c) (next c) (tail c) n (have_next c).
Definition set_have_next (b : bool) (c : cell) := mkCell (val c) (next c) (tail c) (len c) b.

(** [h[i].field = ...] *)
Definition modify (h : heap) (i : nat) (f : cell -> cell) : option heap :=
  match get h i with Some c => Some (put h i (f c)) | None => None end.

Definition bind {A B} (x : option A) (f : A -> option B) : option B :=
  match x with Some a => f a | None => None end.
Notation "'do' x <- a ; b" := (bind a (fun x => b)) (at level 200, x pattern, a at level 100, b at level 200).
Definition assert (b : bool) : option unit := if b then Some tt else None.

(** include/lang/object.h enum iteration_result *)
Inductive iter := ir_cont | ir_done | ir_err.

(** object.c 497-525 obj_array_foreach, for a callback that may change the heap and a context *)
Fixpoint walk {S} (cb : heap -> S -> nat -> option (heap * S * iter)) (fuel : nat)
    (h : heap) (st : S) (a : nat) : option (heap * S * bool) :=
  match fuel with
  | 0 => None
  | Datatypes.S fuel =>
      do x <- get h a;
      do (h, st, r) <- cb h st (val x);
      match r with
      | ir_done => Some (h, st, true)
      | ir_err => Some (h, st, false)
      | ir_cont =>
          do x <- get h a;
          if negb (have_next x) then Some (h, st, true)
          else walk cb fuel h st (next x)
      end
  end.
Definition foreach {S} (cb : heap -> S -> nat -> option (heap * S * iter))
    (h : heap) (a : nat) (st : S) : option (heap * S * bool) :=
  do x <- get h a;
  if len x =? 0 then Some (h, st, true) else walk cb (length h) h st a.

(** object.c 567-592 obj_array_push *)
Definition push (h : heap) (arr child : nat) : option heap :=
  do a <- get h arr;
  if len a =? 0 then
    Some (put h arr (mkCell child (next a) arr 1 false))
  else
    let '(h, child_arr) := make_array h in
    do h <- modify h child_arr (set_val child);
    do a <- get h arr;
    do t <- get h (tail a);
    do _ <- assert (negb (have_next t));
    do h <- modify h (tail a) (fun c => set_next child_arr (set_have_next true c));
    do h <- modify h arr (set_tail child_arr);
    modify h arr (fun c => set_len (len c + 1) c).

(** object.c 672-679 obj_array_dup_iter *)
Definition dup_iter (h : heap) (arr v : nat) : option (heap * nat * iter) :=
  do h <- push h arr v; Some (h, arr, ir_cont).
(** object.c 681-687 obj_array_dup *)
Definition dup (h : heap) (arr : nat) : option (heap * nat) :=
  let '(h, res) := make_array h in
  do (h, _, _) <- foreach dup_iter h arr res; Some (h, res).

(** object.c 689-711 obj_array_extend_nodup *)
Definition extend_nodup (h : heap) (arr arr2 : nat) : option heap :=
  do b <- get h arr2;
  if len b =? 0 then Some h else
  do a <- get h arr;
  if len a =? 0 then
    do (h, _, _) <- foreach dup_iter h arr2 arr; Some h
  else
    do t <- get h (tail a);
    do _ <- assert (negb (have_next t));
    do h <- modify h (tail a) (fun c => set_next arr2 (set_have_next true c));
    do b <- get h arr2;
    do h <- modify h arr (set_tail (tail b));
    do b <- get h arr2;
    modify h arr (fun c => set_len (len c + len b) c).

(** object.c 713-719 obj_array_extend *)
Definition extend (h : heap) (arr arr2 : nat) : option heap :=
  do (h, d) <- dup h arr2; extend_nodup h arr d.

(** object.c 594-602 obj_array_prepend; the new id replaces the caller's *)
Definition prepend (h : heap) (arr v : nat) : option (heap * nat) :=
  let '(h, p) := make_array h in
  do h <- push h p v;
  do h <- extend_nodup h p arr; Some (h, p).

(** object.c 642-655 obj_array_index_iter: context (i, result) *)
Definition index_iter (tgt : nat) (h : heap) (c : nat * option nat) (v : nat)
    : option (heap * (nat * option nat) * iter) :=
  let '(i, res) := c in
  if i =? tgt then Some (h, (i, Some v), ir_done) else Some (h, (i + 1, res), ir_cont).
(** object.c 657-664 obj_array_index; ctx.res starts at 0 *)
Definition index (h : heap) (arr : nat) (i : Z) : option nat :=
  do a <- get h arr;
  do _ <- assert ((0 <=? i) && (i <? Z.of_nat (len a)))%Z;
  do (_, (_, res), _) <- foreach (index_iter (Z.to_nat i)) h arr (0, None);
  match res with Some v => Some v | None => Some 0 end.

(** object.c 666-670 obj_array_get_tail *)
Definition get_tail (h : heap) (arr : nat) : option nat :=
  do a <- get h arr; do t <- get h (tail a); Some (val t).

(** object.c 798-814 obj_array_tail *)
Definition array_tail (h : heap) (arr : nat) : option (heap * nat) :=
  do a <- get h arr;
  if have_next a then
    do h <- modify h (next a) (set_tail (tail a));
    do h <- modify h (next a) (set_len (len a));
    Some (h, next a)
  else let '(h, r) := make_array h in Some (h, r).

(** object.c 820-836 the walk of obj_array_set: the cell of element [i], when [arr] is that of
    element [j] *)
Fixpoint set_loop (fuel : nat) (h : heap) (arr j i v : nat) : option heap :=
  match fuel with
  | 0 => None
  | S fuel =>
      if j =? i then modify h arr (set_val v)
      else do c <- get h arr; do _ <- assert (have_next c);
           set_loop fuel h (next c) (j + 1) i v
  end.
(** object.c 816-836 obj_array_set *)
Definition array_set (h : heap) (arr : nat) (i : Z) (v : nat) : option heap :=
  do a <- get h arr;
  do _ <- assert ((0 <=? i) && (i <? Z.of_nat (len a)))%Z;
  set_loop (length h) h arr 0 (Z.to_nat i) v.

(** object.c 862-873 the walk of obj_array_del: previous cell and deleted cell *)
Fixpoint del_loop (fuel : nat) (h : heap) (p arr j i : nat) : option (nat * nat) :=
  match fuel with
  | 0 => None
  | S fuel =>
      if j =? i then Some (p, arr)
      else do c <- get h arr; do _ <- assert (have_next c);
           del_loop fuel h arr (next c) (j + 1) i
  end.
(** object.c 838-886 obj_array_del *)
Definition del (h : heap) (arr : nat) (i : Z) : option heap :=
  do head <- get h arr;
  do _ <- assert ((0 <=? i) && (i <? Z.of_nat (len head)))%Z;
  if (i =? 0)%Z then
    if have_next head then
      do h <- modify h (next head) (set_len (len head - 1));
      do h <- modify h (next head) (set_tail (tail head));
      do n <- get h (next head);
      modify h arr (fun _ => n)
    else modify h arr (fun _ => zero_cell)
  else
    do (p, d) <- del_loop (length h) h arr arr 0 (Z.to_nat i);
    do dc <- get h d;
    do h <- (if have_next dc then modify h p (set_next (next dc))
             else do h <- modify h arr (set_tail p); modify h p (set_have_next false));
    modify h arr (fun c => set_len (len c - 1) c).

(** object.c 888-894 obj_array_pop *)
Definition pop (h : heap) (arr : nat) : option (heap * nat) :=
  do t <- get_tail h arr;
  do a <- get h arr;
  do h <- del h arr (Z.of_nat (len a) - 1);
  Some (h, t).

(** object.c 1004-1022 obj_array_slice_iter: context (i, res) *)
Definition slice_iter (i0 i1 : Z) (h : heap) (c : Z * nat) (v : nat)
    : option (heap * (Z * nat) * iter) :=
  let '(i, res) := c in
  do h <- (if (i0 <=? i)%Z then push h res v else Some h);
  let i := (i + 1)%Z in
  if (i1 <? i)%Z then Some (h, (i, res), ir_done) else Some (h, (i, res), ir_cont).
(** object.c 1024-1041 obj_array_slice *)
Definition array_slice (h : heap) (a : nat) (i0 i1 : Z) : option (heap * nat) :=
  do arr <- get h a;
  let '(i0, ok0) := bounds_adjust (Z.of_nat (len arr)) i0 in
  let '(i1, ok1) := bounds_adjust (Z.of_nat (len arr)) i1 in
  do _ <- assert (ok0 && ok1);
  let '(h, res) := make_array h in
  do (h, _, _) <- foreach (slice_iter i0 i1) h a (0%Z, res);
  Some (h, res).

Section Elements.
(** object.c 431-491 obj_equal on elements; object.c get_str, [None] for a non-string *)
Variable equal : nat -> nat -> bool.
Variable str_of : nat -> option bytes.

(** object.c 610-622 obj_array_index_of_iter: context (i, found) *)
Definition index_of_iter (l : nat) (h : heap) (c : nat * bool) (v : nat)
    : option (heap * (nat * bool) * iter) :=
  let '(i, res) := c in
  if equal l v then Some (h, (i, true), ir_done) else Some (h, (i + 1, res), ir_cont).
(** object.c 624-632 obj_array_index_of *)
Definition index_of (h : heap) (arr v : nat) : option (nat * bool) :=
  do (_, c, _) <- foreach (index_of_iter v) h arr (0, false); Some c.
(** object.c 634-639 obj_array_in *)
Definition array_in (h : heap) (arr v : nat) : option bool :=
  do (_, b) <- index_of h arr v; Some b.

(** object.c 896-911 obj_array_dedup_iter; wk->obj_hash, a map keyed by object id, is the list
    of ids it contains *)
Definition dedup_iter (h : heap) (c : nat * list nat) (v : nat)
    : option (heap * (nat * list nat) * iter) :=
  let '(res, seen) := c in
  if existsb (Nat.eqb v) seen then Some (h, (res, seen), ir_cont) else
  let seen := v :: seen in
  do found <- array_in h res v;
  do h <- (if negb found then push h res v else Some h);
  Some (h, (res, seen), ir_cont).
(** object.c 913-920 obj_array_dedup *)
Definition dedup (h : heap) (arr : nat) : option (heap * nat) :=
  let '(h, res) := make_array h in
  do (h, _, _) <- foreach dedup_iter h arr (res, []); Some (h, res).

(** object.c 727-746 obj_array_join_iter: context (i, res) *)
Definition join_iter (sep : bytes) (n : nat) (h : heap) (c : nat * bytes) (v : nat)
    : option (heap * (nat * bytes) * iter) :=
  let '(i, res) := c in
  match str_of v with
  | None => Some (h, (i, res), ir_err)
  | Some s => Some (h, (i + 1, res ++ s ++ (if i <? n - 1 then sep else [])), ir_cont)
  end.
(** object.c 773-796 obj_array_join with flat = false; [Some None]: an element is no string *)
Definition join (h : heap) (arr : nat) (sep : bytes) : option (option bytes) :=
  do a <- get h arr;
  do (_, (_, res), ok) <- foreach (join_iter sep (len a)) h arr (0, []);
  Some (if ok : bool then Some res else None).

(** what a reader sees: the length field, and every element foreach visits *)
Definition elements_iter (h : heap) (l : list nat) (v : nat) : option (heap * list nat * iter) :=
  Some (h, l ++ [v], ir_cont).
Definition elements (h : heap) (arr : nat) : option (list nat) :=
  do (_, l, _) <- foreach elements_iter h arr []; Some l.
Definition length_of (h : heap) (arr : nat) : option nat :=
  do a <- get h arr; Some (len a).

(** ** Calls: a program holds array ids in numbered variables *)
Inductive call :=
| New | Push (a v : nat) | Prepend (a v : nat) | Dup (a : nat)
| Extend (a b : nat) | ExtendNodup (a b : nat)
| SetAt (a : nat) (i : Z) (v : nat) | Del (a : nat) (i : Z) | Pop (a : nat)
| Index (a : nat) (i : Z) | Slice (a : nat) (i0 i1 : Z) | Dedup (a : nat) | Contains (a v : nat)
| Join (a : nat) (sep : bytes) | Length (a : nat) | Elements (a : nat).
Inductive answer := ANone | AVal (v : nat) | ABool (b : bool) | ANum (n : nat)
                  | AStr (s : option bytes) | AList (l : list nat).
Record state := mkState { hp : heap; vars : list nat }.

Definition ret (r : heap * nat) (vs : list nat) : option (state * answer) :=
  Some (mkState (fst r) (vs ++ [snd r]), ANone).

Definition step (s : state) (c : call) : option (state * answer) :=
  let h := hp s in
  let var i := nth_error (vars s) i in
  let eff (x : option heap) := do h <- x; Some (mkState h (vars s), ANone) in
  match c with
  | New => ret (make_array h) (vars s)
  | Push a v => do a <- var a; eff (push h a v)
  | Prepend a v => do id <- var a; do (h, p) <- prepend h id v;
                   Some (mkState h (upd a p (vars s)), ANone)
  | Dup a => do a <- var a; do r <- dup h a; ret r (vars s)
  | Extend a b => do a <- var a; do b <- var b; eff (extend h a b)
  | ExtendNodup a b => do a <- var a; do b <- var b; eff (extend_nodup h a b)
  | SetAt a i v => do a <- var a; eff (array_set h a i v)
  | Del a i => do a <- var a; eff (del h a i)
  | Pop a => do a <- var a; do (h, v) <- pop h a; Some (mkState h (vars s), AVal v)
  | Index a i => do a <- var a; do v <- index h a i; Some (s, AVal v)
  | Slice a i0 i1 => do a <- var a; do r <- array_slice h a i0 i1; ret r (vars s)
  | Dedup a => do a <- var a; do r <- dedup h a; ret r (vars s)
  | Contains a v => do a <- var a; do b <- array_in h a v; Some (s, ABool b)
  | Join a sep => do a <- var a; do r <- join h a sep; Some (s, AStr r)
  | Length a => do a <- var a; do n <- length_of h a; Some (s, ANum n)
  | Elements a => do a <- var a; do l <- elements h a; Some (s, AList l)
  end.

Fixpoint run (s : state) (cs : list call) : option (state * list answer) :=
  match cs with
  | [] => Some (s, [])
  | c :: cs => do (s, r) <- step s c; do (s, rs) <- run s cs; Some (s, r :: rs)
  end.
End Elements.
