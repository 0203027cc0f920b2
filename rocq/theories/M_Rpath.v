(** Model of how the rpaths of installed files are fixed (src/platform/posix/rpath_fixer.c).

    A file is its bytes and a position.  The machine that muon runs on is little endian, offsets
    and the number of dynamic entries do not exceed 32 bits, reading and writing itself does not
    fail, and what an entry that is shorter than its structure leaves unread is zero. *)
From Verif Require Import Base M_Path.
Local Arguments B _ : simpl never.

(** [Failed] is an error that is reported, [Aborts] a failed assertion, [Overruns] a write behind
    the end of a buffer *)
Inductive out (A : Type) := Done (a : A) | Failed | Aborts | Overruns | NoFuel.
Arguments Done {A} _. Arguments Failed {A}. Arguments Aborts {A}. Arguments Overruns {A}.
Arguments NoFuel {A}.

Definition obind {A C} (x : out A) (k : A -> out C) : out C :=
  match x with
  | Done a => k a | Failed => Failed | Aborts => Aborts | Overruns => Overruns | NoFuel => NoFuel
  end.

(** ** Files: platform/filesystem.c 105-113, 274-322 *)
Record io := mkIo { data : bytes; pos : nat }.

Definition seek (n : nat) (f : io) : io := {| data := data f; pos := n |}.

Definition read (n : nat) (f : io) : out (bytes * io) :=
  match n with
  | 0 => Done ([], f)
  | _ => if pos f + n <=? length (data f)
         then Done (firstn n (skipn (pos f) (data f)), {| data := data f; pos := pos f + n |})
         else Failed
  end.

(** writing behind the end fills what is between with zeros *)
Definition write (s : bytes) (f : io) : io :=
  match s with
  | [] => f
  | _ => {| data := firstn (pos f) (data f ++ repeat NUL (pos f - length (data f))) ++ s
                    ++ skipn (pos f + length s) (data f);
            pos := pos f + length s |}
  end.

(** BUF_SIZE_4k, the size of [rpath]; BUF_SIZE_2k, that of union elf_hdrbuf *)
Definition rpath_size : nat := N.to_nat 4096.
Definition hdr_size : nat := N.to_nat 2048.

(** ** 204-267 remove_paths *)
Record rp := mkRp {
  rpath : bytes;
  cur_off : nat;
  copy_to : nat;
  modified : bool;
  preserve_separator : bool;
  cleared : bool
}.

(** 224-242: an entry, which ends with [c] *)
Definition end_of_path (root : bytes) (c : ascii) (f : io) (x : rp) : out (io * rp) :=
  if rpath_size <? length (rpath x) then Aborts
  else if length (rpath x) =? rpath_size then Overruns
  else match path_is_subpath root (rpath x) with
       | None => Aborts
       | Some sub =>
           if sub || (length (rpath x) =? 0)
           then Done (f, {| rpath := []; cur_off := cur_off x; copy_to := copy_to x; modified := true;
                            preserve_separator := preserve_separator x; cleared := cleared x |})
           else
             let f := if modified x
                      then seek (cur_off x + 1)
                             (write [c] (write (rpath x)
                               (seek (copy_to x + (if preserve_separator x then 1 else 0)) f)))
                      else f in
             Done (f, {| rpath := []; cur_off := cur_off x; copy_to := copy_to x + length (rpath x);
                         modified := modified x; preserve_separator := ceqb c ":"%char;
                         cleared := false |})
       end.

(** 218-258 the loop over the characters *)
Fixpoint paths_loop (fuel : nat) (root : bytes) (f : io) (x : rp) : out (io * rp) :=
  match fuel with
  | 0 => NoFuel
  | S fuel =>
      obind (read 1 f) (fun '(s, f) =>
      let c := hd NUL s in
      if ceqb c NUL || ceqb c ":"%char
      then obind (end_of_path root c f x) (fun '(f, x) =>
           if ceqb c NUL then Done (f, x)
           else paths_loop fuel root f
                  {| rpath := rpath x; cur_off := S (cur_off x); copy_to := copy_to x;
                     modified := modified x; preserve_separator := preserve_separator x;
                     cleared := cleared x |})
      else if rpath_size <=? length (rpath x) then Aborts
      else paths_loop fuel root f
             {| rpath := rpath x ++ [c]; cur_off := S (cur_off x); copy_to := copy_to x;
                modified := modified x; preserve_separator := preserve_separator x;
                cleared := cleared x |})
  end.

(** the file afterwards, and whether no entry is left *)
Definition remove_paths (root : bytes) (off : nat) (f : io) : out (io * bool) :=
  obind (paths_loop (S (length (data f))) root (seek off f)
           {| rpath := []; cur_off := off; copy_to := off; modified := false;
              preserve_separator := false; cleared := true |}) (fun '(f, x) =>
  Done (write [NUL] (seek (copy_to x) f), cleared x)).                      (* 260-264 *)

(** ** Reading *)

(** little endian numbers *)
Fixpoint le (s : bytes) : nat := match s with [] => 0 | c :: s => nat_of_ascii c + 256 * le s end.
Definition field (o n : nat) (b : bytes) : nat := le (firstn n (skipn o b)).

(** 31-36 struct elf *)
Record elf := mkElf { wide : bool; shoff : nat; shentsize : nat; shnum : nat }.

(** 68-121 parse_elf: 16 bytes of identification, then a header of 52 or 64 bytes; [None] if the
    file is none *)
Definition parse_elf (f : io) : option elf :=
  match read 16 f with
  | Done (i, f) =>
      let class := field 4 1 i in
      let enc := field 5 1 i in
      if negb (beqb (firstn 4 i) (ascii_of_nat 127 :: B "ELF")) then None
      else if negb ((class =? 1) || (class =? 2)) then None
      else if negb ((enc =? 1) || (enc =? 2)) then None
      else
        let w := class =? 2 in
        match read (if w then 48 else 36) f with
        | Done (h, _) =>
            let b := i ++ h in
            Some (if w then {| wide := true; shoff := field 40 8 b; shentsize := field 58 2 b;
                               shnum := field 60 2 b |}
                  else {| wide := false; shoff := field 32 4 b; shentsize := field 46 2 b;
                          shnum := field 48 2 b |})
        | _ => None
        end
  | _ => None
  end.

(** 38-44 struct elf_section *)
Record section := mkSec { s_off : nat; s_len : nat; s_entsize : nat }.

(** 136-142; the size of an entry is cut to 32 bits *)
Definition read_section (w : bool) (b : bytes) : nat * section :=
  let '(ty, off, es, size) :=
    if w then (field 4 4 b, field 24 8 b, field 56 4 b, field 32 8 b)
    else (field 4 4 b, field 16 4 b, field 36 4 b, field 20 4 b) in
  (ty, {| s_off := off; s_entsize := es; s_len := match es with 0 => 0 | _ => size / es end |}).

(** 131-164 the loop of parse_elf_sections for SHT_DYNAMIC (6) and SHT_STRTAB (3) *)
Fixpoint sections_loop (n : nat) (e : elf) (f : io) (dyn str : option section)
  : out (section * section * io) :=
  match n with
  | 0 => Failed
  | S n =>
      obind (read (shentsize e) f) (fun '(b, f) =>
      let '(ty, s) := read_section (wide e) b in
      let dyn := if ty =? 6 then Some s else dyn in
      let str := if ty =? 3 then Some s else str in
      match dyn, str with
      | Some d, Some t => Done (d, t, f)
      | _, _ => sections_loop n e f dyn str
      end)
  end.

(** 123-167 parse_elf_sections *)
Definition parse_sections (e : elf) (f : io) : out (section * section * io) :=
  if hdr_size <? shentsize e then Aborts
  else sections_loop (shnum e) e (seek (shoff e) f) None None.

(** 181-199 the entries of the dynamic section: tag, cut to 32 bits, and value *)
Fixpoint dynamic_loop (n : nat) (w : bool) (es : nat) (f : io) : out (list (nat * nat) * io) :=
  match n with
  | 0 => Done ([], f)
  | S n =>
      obind (read es f) (fun '(b, f) =>
      obind (dynamic_loop n w es f) (fun '(l, f) =>
      Done ((if w then (field 0 4 b, field 8 8 b) else (field 0 4 b, field 4 4 b)) :: l, f)))
  end.

(** 169-202 parse_elf_dynamic *)
Definition parse_dynamic (e : elf) (d : section) (f : io) : out (list (nat * nat) * io) :=
  if hdr_size <? s_entsize d then Aborts
  else dynamic_loop (s_len d) (wide e) (s_entsize d) (seek (s_off d) f).

(** 189-198: the last entry with this tag, its value and index *)
Fixpoint with_tag (tag : nat) (l : list (nat * nat)) (i : nat) (found : option (nat * nat))
  : option (nat * nat) :=
  match l with
  | [] => found
  | (t, v) :: l => with_tag tag l (S i) (if t =? tag then Some (v, i) else found)
  end.

(** 275-293: entries [i] to [i + n - 1] are moved one to the front *)
Fixpoint shift (n : nat) (d : section) (i : nat) (f : io) : out io :=
  match n with
  | 0 => Done f
  | S n =>
      obind (read (s_entsize d) (seek (s_off d + s_entsize d * i) f)) (fun '(b, f) =>
      shift n d (S i) (write b (seek (s_off d + s_entsize d * (i - 1)) f)))
  end.

(** 269-307 remove_path_entry *)
Definition remove_path_entry (e : elf) (d : section) (index : nat) (f : io) : out io :=
  if hdr_size <? s_entsize d then Aborts
  else obind (shift (s_len d - (index + 1)) d (index + 1) f) (fun f =>
       obind (parse_dynamic e d f) (fun '(_, f) => Done f)).

(** 334-351 the loop over DT_RPATH (15) and DT_RUNPATH (29) *)
Fixpoint fix_each (root : bytes) (e : elf) (d t : section) (found : list (option (nat * nat))) (f : io)
  : out io :=
  match found with
  | [] => Done f
  | None :: l => fix_each root e d t l f
  | Some (off, index) :: l =>
      obind (remove_paths root (s_off t + off) f) (fun '(f, cl) =>
      if cl then obind (remove_path_entry e d index f) (fix_each root e d t l)
      else fix_each root e d t l f)
  end.

(** 309-362 fix_rpaths: the bytes of the file afterwards *)
Definition fix_rpaths (root : bytes) (s : bytes) : out bytes :=
  let f := {| data := s; pos := 0 |} in
  match parse_elf f with
  | None => Done s                                                          (* 319-323 *)
  | Some e =>
      obind (parse_sections e f) (fun '(d, t, f) =>
      obind (parse_dynamic e d f) (fun '(l, f) =>
      obind (fix_each root e d t [with_tag 15 l 0 None; with_tag 29 l 0 None] f) (fun f =>
      Done (data f))))
  end.
