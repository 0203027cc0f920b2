(** What fixing the rpaths of an installed file must do. *)
From Verif Require Import Base S_Path.
Local Arguments B _ : simpl never.

Definition COLON : ascii := ":"%char.

(** an entry of an rpath that fits into the buffer for it *)
Definition entry (e : bytes) : Prop :=
  ~ In NUL e /\ ~ In COLON e /\ (N.of_nat (length e) < 4096)%N.

(** entries are separated by colons *)
Definition list_of (es : list bytes) : bytes := joinb [COLON] es.

(** an entry stays if it names a directory that does not lie in the build directory *)
Definition inside (root e : bytes) : Prop := is_abs root = is_abs e /\ prefix_of (comps root) (comps e).
Definition stays (root e : bytes) : Prop := e <> [] /\ ~ inside root e.
Definition goes (root e : bytes) : Prop := e = [] \/ inside root e.

(** two files differ at most from byte [a] on and before byte [b] *)
Definition same_outside (a b : nat) (s s' : bytes) : Prop :=
  length s' = length s /\ firstn a s' = firstn a s /\ skipn b s' = skipn b s.

(** ** ELF files of 64 bits *)

(** the little endian number of [n] bytes from byte [o] on *)
Definition number (o n : nat) (s : bytes) : nat :=
  fold_right (fun c v => nat_of_ascii c + 256 * v) 0 (firstn n (skipn o s)).

(** the file header: its magic number, class and encoding, where the headers of the sections are
    and how many there are *)
Definition elf64 (s : bytes) (shoff shnum : nat) : Prop :=
  64 <= length s /\ firstn 4 s = ascii_of_nat 127 :: B "ELF" /\ number 4 1 s = 2
  /\ (number 5 1 s = 1 \/ number 5 1 s = 2)
  /\ number 40 8 s = shoff /\ number 58 2 s = 64 /\ number 60 2 s = shnum /\ shoff + 64 * shnum <= length s.

(** the type of section [i]: 3 is a string table and 6 the dynamic section *)
Definition sh_type (s : bytes) (shoff i : nat) : nat := number (shoff + 64 * i + 4) 4 s.

(** section [i] begins at [off] and has [len] entries of [es] bytes *)
Definition sh_range (s : bytes) (shoff i off len es : nat) : Prop :=
  number (shoff + 64 * i + 24) 8 s = off /\ number (shoff + 64 * i + 32) 8 s = len * es
  /\ number (shoff + 64 * i + 56) 4 s = es.

(** the tag and the value of the dynamic entry [j]: 15 is DT_RPATH, 29 DT_RUNPATH *)
Definition dyn_tag (s : bytes) (off j : nat) : nat := number (off + 16 * j) 4 s.
Definition dyn_val (s : bytes) (off j : nat) : nat := number (off + 16 * j + 8) 8 s.

(** the dynamic section is section [d] at [doff] with [n] entries of 16 bytes, the string table
    before it section [t] at [toff] *)
Definition dynamic (s : bytes) (shoff shnum doff n toff : nat) : Prop :=
  exists t d, t < d /\ d < shnum
  /\ sh_type s shoff d = 6 /\ (forall i, i < d -> sh_type s shoff i <> 6)
  /\ sh_type s shoff t = 3 /\ (forall i, t < i -> i < d -> sh_type s shoff i <> 3)
  /\ sh_range s shoff d doff n 16 /\ doff + 16 * n <= length s
  /\ number (shoff + 64 * t + 24) 8 s = toff.
