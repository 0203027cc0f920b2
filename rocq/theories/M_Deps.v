(** The dependency log .ninja_deps: src/external/samurai/deps.c.
    Nodes are identified by their paths: samu_mknode (graph.c 34-58) returns the same node for
    the same path.  Integers in the file are in the byte order of a little-endian machine. *)
From Verif Require Import Base.
From Coq Require Import NArith.

(** the bytes of an unsigned integer of [k] bytes, and the integer with given bytes *)
Fixpoint le (k : nat) (v : N) : bytes :=
  match k with 0 => [] | S k' => ascii_of_N (v mod 256) :: le k' (v / 256)%N end.
Fixpoint unle (l : bytes) : N :=
  match l with [] => 0%N | c :: l' => (N_of_ascii c + 256 * unle l')%N end.
(** the buffer as an array of uint32_t *)
Fixpoint words (l : bytes) : list N :=
  match l with a :: b :: c :: d :: r => unle [a; b; c; d] :: words r | _ => [] end.

(** [Fatal]: samu_fatal ends the program; [Undefined]: memory is accessed that was not set *)
Inductive outcome (A : Type) := Ok (a : A) | Fatal | Undefined.
Arguments Ok {A}. Arguments Fatal {A}. Arguments Undefined {A}.
Definition bind {A C} (x : outcome A) (f : A -> outcome C) : outcome C :=
  match x with Ok a => f a | Fatal => Fatal | Undefined => Undefined end.

(** deps.h struct samu_entry *)
Record entry := Entry { node : bytes; mtime : Z; deps : list bytes }.

(** deps.c 53-57; BUFSIZ and the growth of the buffer are not modelled *)
Definition MAX_RECORD_SIZE : N := 524288.
Definition HIGH : N := 2147483648.
Definition INT32_MAX : N := 2147483647.
Definition depsheader : bytes := B "# ninjadeps" ++ [NL].
Definition depsver : N := 4.

(** 114-135 src_fread with n = 1; the source is represented by what is left of it *)
Definition fread (sz : N) (src : bytes) : option (bytes * bytes) :=
  if (sz =? 0)%N then None
  else if (N.of_nat (length src) <? sz)%N then None
  else Some (firstn (N.to_nat sz) src, skipn (N.to_nat sz) src).

(** (int64_t)buf[2] << 32 | buf[1] *)
Definition int64 (lo hi : N) : Z :=
  let v := Z.of_N (hi * 2 ^ 32 + lo)%N in if (v <? 2 ^ 63)%Z then v else (v - 2 ^ 64)%Z.

(** what reading a record leads to: the next record, or the label rewrite *)
Inductive next := Continue (es : list entry) | Rewrite (es : list entry) | Bad.

(** 250-259 the nodes with the given IDs; [None]: there is no such ID *)
Fixpoint resolve (es : list entry) (ids : list N) : option (list bytes) :=
  match ids with
  | [] => Some []
  | i :: ids' => match nth_error es (N.to_nat i), resolve es ids' with
                 | Some d, Some ds => Some (node d :: ds)
                 | _, _ => None
                 end
  end.
(** 234-259 a dependency record; [hd p]: the node [p] is the output of an edge with a variable
    "deps".  A bad ID after the length of the list has been set leaves uninitialised pointers
    in the list, which are followed after the label rewrite (315-317). *)
Definition load_dep (hd : bytes -> bool) (ws : list N) (es : list entry) : next :=
  match ws with
  | id :: lo :: hi :: ids =>
      match nth_error es (N.to_nat id) with
      | None => Rewrite es
      | Some e =>
          let e := Entry (node e) (int64 lo hi) (deps e) in
          let es := upd (N.to_nat id) e es in
          if negb (hd (node e)) then Continue es
          else
            match resolve es ids with
            | None => Bad
            | Some ds => Continue (upd (N.to_nat id) (Entry (node e) (mtime e) ds) es)
            end
      end
  | _ => Rewrite es (* sz < 12 *)
  end.

(** 273-275 while (((char * )buf)[len - 1] == '\0') --len; with the bytes in reverse order.
    [None]: the loop leaves the buffer *)
Fixpoint strip (rl : bytes) : option bytes :=
  match rl with
  | [] => None
  | c :: rl' => if ceqb c NUL then strip rl' else Some (rev rl)
  end.
(** 260-288 a node record *)
Definition load_node (buf : bytes) (es : list entry) : next :=
  let sz := length buf in
  if sz <=? 4 then Rewrite es
  else if negb (N.of_nat (length es) =? N.lxor (nth (sz / 4 - 1) (words buf) 0%N) (2 ^ 32 - 1))%N
       then Rewrite es
  else if (N.of_nat (length es) =? INT32_MAX)%N then Rewrite es
  else match strip (rev (firstn (sz - 4) buf)) with
       | None => Bad
       | Some path => Continue (es ++ [Entry path 0 []])
       end.

(** 208-290 *)
Fixpoint load_loop (fuel : nat) (hd : bytes -> bool) (src : bytes) (es : list entry)
  : outcome (list entry) :=
  match fuel with
  | 0 => Undefined
  | S f =>
      match fread 4 src with
      | None => Ok es
      | Some (b, src) =>
          let isdep := N.testbit (unle b) 31 in
          let sz := N.land (unle b) 2147483647 in
          if (MAX_RECORD_SIZE <? sz)%N then Ok es
          else match fread sz src with
               | None => Ok es
               | Some (buf, src) =>
                   if negb (sz mod 4 =? 0)%N then Ok es
                   else match (if isdep then load_dep hd (words buf) es else load_node buf es) with
                        | Continue es => load_loop f hd src es
                        | Rewrite es => Ok es
                        | Bad => Undefined
                        end
               end
      end
  end.
(** 155-290; a NUL follows the contents of the file in memory, so that the comparison of the
    header ends.  A file that is missing or cannot be read is like the empty one. *)
Definition load (hd : bytes -> bool) (file : bytes) : outcome (list entry) :=
  if negb (starts_with depsheader file) then Ok []
  else match fread 4 (skipn 12 file) with
       | None => Ok []
       | Some (v, src) => if negb (unle v =? depsver)%N then Ok []
                          else load_loop (S (length src)) hd src []
       end.

(** ** Writing.  [order]: the nodes that have an ID, in the order of their IDs; [tbl]: the array
    ctx->deps.entries as far as it was set; [out]: what was written to the file *)
Record writer := W { order : list bytes; tbl : list entry; out : bytes }.
Fixpoint id_of (p : bytes) (l : list bytes) : option nat :=
  match l with
  | [] => None
  | q :: l' => if beqb p q then Some 0
               else match id_of p l' with Some i => Some (S i) | None => None end
  end.
(** 67-90; (n + 7) & ~3 is computed without wrapping around at 2^32 *)
Definition recordid (p : bytes) (w : writer) : outcome (writer * bool) :=
  match id_of p (order w) with
  | Some _ => Ok (w, false)
  | None =>
      let id := N.of_nat (length (order w)) in
      if (id =? INT32_MAX)%N then Fatal
      else
        let n := N.of_nat (length p) in
        let sz := (4 * ((n + 7) / 4))%N in
        if (MAX_RECORD_SIZE <=? sz + 4)%N then Fatal
        else Ok (W (order w ++ [p]) (tbl w)
                   (out w ++ le 4 sz ++ p ++ repeat NUL (N.to_nat (sz - n - 4))
                          ++ le 4 (N.lxor id (2 ^ 32 - 1))), true)
  end.
(** 92-112 *)
Definition recorddeps (p : bytes) (ds : list bytes) (m : Z) (w : writer) : outcome writer :=
  let id q := match id_of q (order w) with Some i => N.of_nat i | None => (2 ^ 32 - 1)%N end in
  let sz := (12 + 4 * N.of_nat (length ds))%N in
  if (MAX_RECORD_SIZE <=? sz + 4)%N then Fatal
  else
    let v := Z.to_N (m mod 2 ^ 64) in
    Ok (W (order w) (tbl w)
          (out w ++ le 4 (N.lor sz HIGH) ++ le 4 (id p) ++ le 4 (N.land v (2 ^ 32 - 1))
                 ++ le 4 (N.shiftr v 32) ++ flat_map (fun q => le 4 (id q)) ds)).
Fixpoint recordids (ps : list bytes) (w : writer) (any : bool) : outcome (writer * bool) :=
  match ps with
  | [] => Ok (w, any)
  | p :: ps' => bind (recordid p w) (fun '(w, r) => recordids ps' w (any || r))
  end.

(** 307-318 one entry *)
Definition rewrite_entry (e : entry) (w : writer) : outcome writer :=
  match deps e with
  | [] => Ok w
  | _ =>
      bind (recordid (node e) w) (fun '(w, _) =>
      match id_of (node e) (order w) with
      | None => Undefined
      | Some i =>
          if i <? length (tbl w) then
            let w := W (order w) (upd i e (tbl w)) (out w) in
            bind (recordids (deps e) w false) (fun '(w, _) =>
            recorddeps (node e) (deps e) (mtime e) w)
          else Undefined
      end)
  end.
Fixpoint rewrite_all (es : list entry) (w : writer) : outcome writer :=
  match es with
  | [] => Ok w
  | e :: es' => bind (rewrite_entry e w) (rewrite_all es')
  end.
(** 293-318: the entries are not cleared, so the array still holds the old ones *)
Definition rewrite_log (es : list entry) : outcome writer :=
  rewrite_all es (W [] es (depsheader ++ le 4 depsver)).
(** samu_depsinit, 155-332 *)
Definition depsinit (hd : bytes -> bool) (file : bytes) : outcome writer :=
  bind (load hd file) rewrite_log.

(** 489-492 the entry samu_depsload uses for the output [p], if its time stamp is not older than
    the file; [Ok None]: there is none *)
Definition depsload (p : bytes) (w : writer) : outcome (option (Z * list bytes)) :=
  match id_of p (order w) with
  | None => Ok None
  | Some i => match nth_error (tbl w) i with
              | None => Undefined
              | Some e => Ok (Some (mtime e, deps e))
              end
  end.

(** 540-571 samu_depsrecord for the output [p] with time stamp [m], once the depfile was parsed;
    the old entry of a node whose ID was assigned since the log was loaded is not set *)
Definition same_deps (e : entry) (m : Z) (ds : list bytes) : bool :=
  (mtime e =? m)%Z && (length (deps e) =? length ds)
  && forallb (fun '(a, b) => beqb a b) (combine (deps e) ds).
Definition depsrecord (p : bytes) (m : Z) (ds : list bytes) (w : writer) : outcome writer :=
  bind (recordid p w) (fun '(w, new) =>
  bind (if new then Ok true
        else match id_of p (order w) with
             | None => Undefined
             | Some i => match nth_error (tbl w) i with
                         | None => Undefined
                         | Some e => Ok (negb (same_deps e m ds))
                         end
             end) (fun update =>
  bind (recordids ds w update) (fun '(w, update) =>
  if update then recorddeps p ds m w else Ok w))).
Fixpoint record_all (rs : list (bytes * Z * list bytes)) (w : writer) : outcome writer :=
  match rs with
  | [] => Ok w
  | (p, m, ds) :: rs' => bind (depsrecord p m ds w) (record_all rs')
  end.
(** a run of the build: the log is loaded, then records are added *)
Definition session (hd : bytes -> bool) (file : bytes) (rs : list (bytes * Z * list bytes))
  : outcome writer :=
  bind (depsinit hd file) (record_all rs).
