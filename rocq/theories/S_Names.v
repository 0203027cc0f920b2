(** What the names of shared libraries should be, and where links lead. *)
From Coq Require Import NArith.
From Verif Require Import Base S_Path M_Compile M_Names.

(** [m] is the version [v] up to its first dot *)
Definition major (v m : bytes) : Prop := ~ In "."%char m /\ (v = m \/ exists r, v = m ++ B "." ++ r).
(** lib<name>.so, with another prefix or suffix if one is given *)
Definition library_name (a : naming_args) : bytes :=
  (match n_pre a with Some p => p | None => B "lib" end) ++ n_name a ++ B "." ++ (match n_suff a with Some s => s | None => B "so" end).
(** the file has the version at its end, or else the soversion *)
Definition file_name (a : naming_args) (n : bytes) : Prop :=
  match n_ver a, n_sover a with
  | Some v, _ => n = library_name a ++ B "." ++ v
  | None, Some s => n = library_name a ++ B "." ++ s
  | None, None => n = library_name a
  end.
(** the soname has the soversion, or else the first part of the version *)
Definition soname_of (a : naming_args) (n : bytes) : Prop :=
  match n_sover a, n_ver a with
  | Some s, _ => n = library_name a ++ B "." ++ s
  | None, Some v => exists m, major v m /\ n = library_name a ++ B "." ++ m
  | None, None => n = library_name a
  end.
(** the buffers of the code are large enough *)
Definition fits_buffers (a : naming_args) : Prop :=
  (N.of_nat (length (library_name a)) <= 2047)%N /\
  (forall s, n_sover a = Some s -> (N.of_nat (length s) <= 1022)%N) /\ (forall v, n_ver a = Some v -> (N.of_nat (length v) <= 1022)%N).
Definition given (o : option bytes) : bytes := match o with Some s => s | None => [] end.
(** names of files in one directory, that are not ".." *)
Record ordinary (a : naming_args) : Prop := {
  or_slash : ~ In "/"%char (n_name a ++ given (n_sover a) ++ given (n_ver a) ++ given (n_pre a) ++ given (n_suff a));
  or_first : exists c r, n_name a = c :: r /\ c <> "."%char }.

(** where a place leads when the links there are followed *)
Inductive leads (f : files) : place_of -> place_of -> Prop :=
| here p : leads f p p
| follow d n t q : f (d ++ [n]) = Some (Link t) -> leads f (snd (walk (if is_abs t then comps t else d ++ comps t))) q -> leads f (d ++ [n]) q.
Definition is_link (f : files) (p : place_of) : Prop := exists t, f p = Some (Link t).
(** libraries with the usual prefix and suffix, in different directories or with different names *)
Definition usual (a : naming_args) : Prop := n_pre a = None /\ n_suff a = None /\ ~ In "."%char (n_name a).
Definition apart (x y : bytes * naming_args) : Prop := comps (fst x) <> comps (fst y) \/ n_name (snd x) <> n_name (snd y).
