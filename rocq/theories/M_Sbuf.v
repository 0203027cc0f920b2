(** Model of string buffers (src/lang/string.c 545-759) and of the memory of strings
    (src/lang/string.c 72-250, src/datastructures/bucket_arr.c 94-126).

    Memory that was asked for is a list of bytes; a write that does not lie in it is an outcome
    of its own.  Numbers are unsigned and of 32 bits, as in the code.  Not modelled: buffers that
    write to a file (sbuf_flag_write), and running out of memory. *)
From Coq Require Import NArith.
From Verif Require Import Base.
Local Open Scope N_scope.

(** What an operation can end in: [Overflow] is a write or read outside of the memory, [Fatal]
    is error_unrecoverable(), [Abort] is a failed assertion, [Hang] is a loop without end. *)
Inductive out (A : Type) :=
| Ok (a : A)
| Overflow
| Fatal
| Abort
| Hang.
Arguments Ok {A} _. Arguments Overflow {A}. Arguments Fatal {A}. Arguments Abort {A}.
Arguments Hang {A}.

Definition obind {A C} (x : out A) (k : A -> out C) : out C :=
  match x with
  | Ok a => k a
  | Overflow => Overflow
  | Fatal => Fatal
  | Abort => Abort
  | Hang => Hang
  end.

(** arithmetic of uint32_t *)
Definition u32 (n : N) : N := n mod 4294967296.

Definition nlen (s : bytes) : N := N.of_nat (length s).

(** z_calloc, and the memory of new buckets (bucket_arr.c 16-20) *)
Definition zeros (n : N) : bytes := repeat NUL (N.to_nat n).

(** memcpy and memset to position [i] of memory *)
Definition write (m : bytes) (i : N) (d : bytes) : out bytes :=
  if i + nlen d <=? nlen m
  then Ok (firstn (N.to_nat i) m ++ d ++ skipn (N.to_nat i + length d) m)
  else Overflow.

(** workspace.c 88: the size of the buckets of characters *)
Definition chrs_bucket_size : N := 4096.

(** string.c 72-98 reserve_str: the memory of a new string and whether it is big; the assertion
    is bucket_arr.c 100.  Which part of which bucket it is does not matter here (property C16). *)
Definition reserve_str (len : N) : out (bytes * bool) :=
  let new_len := u32 (len + 1) in
  if chrs_bucket_size <? new_len then Ok (zeros new_len, true)
  else if new_len <? chrs_bucket_size then Ok (zeros new_len, false)
  else Abort.

(** ** String buffers *)

(** include/lang/string.h 22-24: what to do when the buffer is full *)
Inductive smode := ObjStr | Alloc | Error.

(** include/lang/string.h 36-41; [mem] is the memory that buf points to ([] for NULL), [slen]
    is the length of the string [s] *)
Record sbuf := mkSbuf { mem : bytes; len : N; cap : N; mode : smode; over : bool; slen : N }.

Section Junk.
(** what memory holds that was not written *)
Variable junk : nat -> ascii.

(** z_realloc *)
Definition realloc (m : bytes) (n : N) : bytes :=
  firstn (N.to_nat n) m ++ map junk (seq (length m) (N.to_nat n - length m)).

(** string.c 547-560 sbuf_init *)
Definition sbuf_init (buf : bytes) (md : smode) : sbuf :=
  {| mem := match buf with [] => [] | _ :: b => NUL :: b end;
     len := 0; cap := nlen buf; mode := md; over := false; slen := 0 |}.

(** string.c 597-599: the loop; after 33 rounds the capacity is 0 for ever *)
Fixpoint double (fuel : nat) (newcap newlen : N) : option N :=
  match fuel with
  | O => None
  | S fuel =>
      let newcap := u32 (newcap * 2) in
      if newcap <? newlen then double fuel newcap newlen else Some newcap
  end.

(** string.c 101-136 grow_str of a string that is mutable (sbuf_grow sets the flag, 629) and
    without room for a NUL: in all three cases the new memory has the old bytes and zeros *)
Definition grow_mem (m : bytes) (l grow_by : N) : bytes :=
  let new_len := u32 (l + grow_by) in
  firstn (N.to_nat l) m ++ zeros (new_len - l).

(** string.c 582-640 sbuf_grow *)
Definition sbuf_grow (sb : sbuf) (inc : N) : out sbuf :=
  let newlen := u32 (len sb + inc) in                                    (* 585 *)
  if newlen <? cap sb then Ok sb                                         (* 587-589 *)
  else
    match double 33 (if cap sb =? 0 then 1024 else cap sb) newlen with
    | None => Hang
    | Some newcap =>
        if over sb then
          match mode sb with
          | Alloc =>                                                     (* 602-604 *)
              obind (write (realloc (mem sb) newcap) (len sb) (zeros (newcap - cap sb)))
                    (fun m => Ok {| mem := m; len := len sb; cap := newcap; mode := mode sb;
                                    over := true; slen := slen sb |})
          | _ =>                                                         (* 606-609 *)
              Ok {| mem := grow_mem (mem sb) (slen sb) (newcap - cap sb); len := len sb;
                    cap := newcap; mode := mode sb; over := true; slen := newcap |}
          end
        else
          match mode sb with
          | Error => Fatal                                               (* 612-618 *)
          | Alloc =>                                                     (* 625 *)
              obind (write (zeros newcap) 0 (firstn (N.to_nat (len sb)) (mem sb)))
                    (fun m => Ok {| mem := m; len := len sb; cap := newcap; mode := mode sb;
                                    over := true; slen := slen sb |})
          | ObjStr =>                                                    (* 627-631 *)
              obind (reserve_str newcap) (fun '(m, _) =>
              obind (write m 0 (firstn (N.to_nat (len sb)) (mem sb)))    (* 634-636 *)
                    (fun m => Ok {| mem := m; len := len sb; cap := newcap; mode := mode sb;
                                    over := true; slen := newcap |}))
          end
    end.

(** The operations of a history.  The texts of [Pushs] and [Pushf] are C strings: what
    sbuf_pushf() pushes is the text that printf gives. *)
Inductive op :=
| Clear
| Push (c : ascii)
| Pushn (s : bytes)
| Pushs (s : bytes)
| Pushf (s : bytes).

(** the writes of bytes at the end of what the buffer holds, of which [n] count *)
Definition put (sb : sbuf) (d : bytes) (n : N) : out sbuf :=
  obind (write (mem sb) (len sb) d) (fun m =>
    Ok {| mem := m; len := u32 (len sb + n); cap := cap sb; mode := mode sb;
          over := over sb; slen := slen sb |}).

Definition step (sb : sbuf) (o : op) : out sbuf :=
  match o with
  | Clear =>                                                             (* 571-580 *)
      obind (write (mem sb) 0 (zeros (len sb))) (fun m =>
        Ok {| mem := m; len := 0; cap := cap sb; mode := mode sb; over := over sb;
              slen := slen sb |})
  | Push c =>                                                            (* 642-660 *)
      obind (sbuf_grow sb 2) (fun sb => put sb [c; NUL] 1)
  | Pushn s =>                                                           (* 662-684 *)
      if nlen s =? 0 then Ok sb
      else obind (sbuf_grow sb (u32 (nlen s + 1))) (fun sb => put sb (s ++ [NUL]) (nlen s))
  | Pushs s =>                                                           (* 686-709 *)
      let n := u32 (nlen s + 1) in
      if n <? 2 then Ok sb
      else obind (sbuf_grow sb n) (fun sb => put sb (s ++ [NUL]) (n - 1))
  | Pushf s =>                                                           (* 711-741 *)
      obind (sbuf_grow sb (nlen s)) (fun sb => put sb (s ++ [NUL]) (nlen s))
  end.

Fixpoint run (sb : sbuf) (os : list op) : out sbuf :=
  match os with
  | [] => Ok sb
  | o :: os => obind (step sb o) (fun sb => run sb os)
  end.

(** strlen(): None if there is no NUL in the memory *)
Fixpoint strlen (m : bytes) : option N :=
  match m with
  | [] => None
  | c :: m => if ceqb c NUL then Some 0 else option_map N.succ (strlen m)
  end.

(** string.c 743-759 sbuf_into_str: the text of the string; make_strn (166-170) reserves memory
    for texts of more than SMALL_STR_LEN = 64 bytes, and for others if they are new *)
Definition sbuf_into_str (sb : sbuf) : out bytes :=
  let text := firstn (N.to_nat (len sb)) (mem sb) in
  match mode sb, over sb with
  | Alloc, _ | _, false =>                                               (* 754-758 *)
      if len sb =? 0 then Ok []
      else if len sb <=? 64 then Ok text
      else obind (reserve_str (len sb)) (fun _ => Ok text)
  | _, true =>                                                           (* 748-753 *)
      match strlen (mem sb) with
      | None => Overflow
      | Some n => if n =? len sb then Ok text else Abort                 (* 751 *)
      end
  end.
End Junk.

(** ** Strings *)

(** include/lang/object.h 138-147 str_flags and struct str; [sreg] is the memory that s points to *)
Record str := mkStr { sreg : nat; stlen : N; sbig : bool; smut : bool }.

(** the part of the workspace that strings live in: memory ([None] is memory that was freed),
    the string objects by number, and those that are in str_hash *)
Record heap := mkHeap { regs : list (option bytes); strs : list str; hashed : list nat }.

Definition heap0 : heap := {| regs := []; strs := []; hashed := [] |}.

(** the bytes of a string *)
Definition str_mem (h : heap) (s : str) : option bytes :=
  match nth_error (regs h) (sreg s) with
  | Some (Some m) => if stlen s <=? nlen m then Some m else None
  | _ => None
  end.

Definition read (h : heap) (o : nat) : option bytes :=
  match nth_error (strs h) o with
  | Some s => option_map (firstn (N.to_nat (stlen s))) (str_mem h s)
  | None => None
  end.

Fixpoint set {A} (l : list A) (i : nat) (a : A) : list A :=
  match l, i with
  | [], _ => []
  | _ :: l, O => a :: l
  | x :: l, S i => x :: set l i a
  end.

(** string.c 72-98 reserve_str with the object: the number of the object *)
Definition new_str (h : heap) (l : N) : out (heap * nat) :=
  obind (reserve_str l) (fun '(m, big) =>
    Ok ({| regs := regs h ++ [Some m];
           strs := strs h ++ [{| sreg := length (regs h); stlen := l; sbig := big; smut := false |}];
           hashed := hashed h |}, length (strs h))).

Definition set_str (h : heap) (o : nat) (s : str) : heap :=
  {| regs := regs h; strs := set (strs h) o s; hashed := hashed h |}.

(** memcpy into the memory of a string *)
Definition write_str (h : heap) (s : str) (i : N) (d : bytes) : out heap :=
  match nth_error (regs h) (sreg s) with
  | Some (Some m) =>
      obind (write m i d) (fun m =>
        Ok {| regs := set (regs h) (sreg s) (Some m); strs := strs h; hashed := hashed h |})
  | _ => Overflow
  end.

(** hash_get_strn (string.c 150); that the table finds what was put in is property C13 *)
Definition hash_get (h : heap) (p : bytes) : option nat :=
  find (fun o => match read h o with Some t => beqb t p | None => false end) (hashed h).

Section Mark.
(** wk->obj_clear_mark_set *)
Variable mark : bool.

(** string.c 140-164 _make_str *)
Definition make_str_ (h : heap) (p : bytes) (mutable : bool) : out (heap * nat) :=
  let l := nlen p in
  match (if negb mutable && (l <=? 64) then hash_get h p else None) with
  | Some o => Ok (h, o)                                                  (* 150-153 *)
  | None =>
      obind (new_str h l) (fun '(h, o) =>
      match nth_error (strs h) o with
      | None => Overflow
      | Some s =>
          obind (write_str h s 0 p) (fun h =>                            (* 156 *)
          if mutable then
            Ok (set_str h o {| sreg := sreg s; stlen := stlen s; sbig := sbig s; smut := true |}, o)
          else if negb mark && (l <=? 64) then                           (* 160-161 *)
            Ok ({| regs := regs h; strs := strs h; hashed := o :: hashed h |}, o)
          else Ok (h, o))
      end)
  end.

(** string.c 101-136 grow_str with room for a NUL *)
Definition grow_str (h : heap) (o : nat) (grow_by : N) : out (heap * nat) :=
  match nth_error (strs h) o with
  | None => Overflow
  | Some ss =>
      let new_len := u32 (stlen ss + grow_by) in                         (* 108 *)
      if negb (smut ss) then                                             (* 110-116 *)
        obind (new_str h new_len) (fun '(h, o1) =>
        match nth_error (strs h) o1, str_mem h ss with
        | Some ns, Some m =>
            obind (write_str h ns 0 (firstn (N.to_nat (stlen ss)) m)) (fun h =>
            Ok (set_str h o1 {| sreg := sreg ns; stlen := stlen ss; sbig := sbig ns;
                                smut := true |}, o1))
        | _, _ => Overflow
        end)
      else
        let new_len := u32 (new_len + 1) in                              (* 118-120 *)
        match str_mem h ss with
        | None => Overflow
        | Some m =>
            let m1 := firstn (N.to_nat (stlen ss)) m ++ zeros (new_len - stlen ss) in
            let big := sbig ss || (chrs_bucket_size <=? new_len) in
            (* 122-133: a big string is reallocated, so that its old memory is gone *)
            let regs1 := if sbig ss then set (regs h) (sreg ss) None else regs h in
            Ok (set_str {| regs := regs1 ++ [Some m1]; strs := strs h; hashed := hashed h |} o
                        {| sreg := length regs1; stlen := stlen ss; sbig := big; smut := true |}, o)
        end
  end.

(** string.c 203-215 str_appn and str_app of bytes that lie outside of the memory of strings *)
Definition str_appn (h : heap) (o : nat) (d : bytes) : out (heap * nat) :=
  obind (grow_str h o (nlen d)) (fun '(h, o) =>
  match nth_error (strs h) o with
  | None => Overflow
  | Some ss =>
      obind (write_str h ss (stlen ss) d) (fun h =>
      Ok (set_str h o {| sreg := sreg ss; stlen := u32 (stlen ss + nlen d); sbig := sbig ss;
                         smut := smut ss |}, o))
  end).

(** What is done with strings: make_str of a text, str_clone_mutable (238-243), str_app of a text
    and str_appn of the bytes of a string, which are read after the growth through the pointer
    that was there before it. *)
Inductive sop :=
| Make (p : bytes)
| CloneMutable (o : nat)
| App (o : nat) (d : bytes)
| AppStr (o src : nat).

Definition sstep (h : heap) (x : sop) : out (heap * nat) :=
  match x with
  | Make p => make_str_ h p false
  | CloneMutable o =>
      match read h o with
      | None => Overflow
      | Some p => make_str_ h p true
      end
  | App o d => str_appn h o d
  | AppStr o src =>
      match nth_error (strs h) src with
      | None => Overflow
      | Some sr =>
          obind (grow_str h o (stlen sr)) (fun '(h, o) =>
          match nth_error (strs h) o, str_mem h sr with
          | Some ss, Some m =>
              let d := firstn (N.to_nat (stlen sr)) m in
              obind (write_str h ss (stlen ss) d) (fun h =>
              Ok (set_str h o {| sreg := sreg ss; stlen := u32 (stlen ss + nlen d);
                                 sbig := sbig ss; smut := smut ss |}, o))
          | _, _ => Overflow
          end)
      end
  end.

Fixpoint srun (h : heap) (xs : list sop) : out (heap * list nat) :=
  match xs with
  | [] => Ok (h, [])
  | x :: xs => obind (sstep h x) (fun '(h, o) =>
               obind (srun h xs) (fun '(h, os) => Ok (h, o :: os)))
  end.
End Mark.
