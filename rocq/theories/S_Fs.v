(** What the path functions of the fs module must mean. *)
From Verif Require Import Base S_Path M_Fs.

(** the text that is given *)
Definition text (x : arg) : bytes := match x with AString s => s | AFile s => s end.

(** a path of a file system: it is not empty and has no NUL *)
Definition a_path (s : bytes) : Prop := s <> [] /\ ~ In NUL s.

(** where a path leads from the current directory: how many steps above the root, and the names
    below it *)
Definition place (cwd s : bytes) : nat * list bytes :=
  walk (if is_abs s then comps s else comps cwd ++ comps s).

(** a path begins with a tilde *)
Definition tilde (s : bytes) : Prop := exists r, s = "~"%char :: r.

(** a name of a file in a directory *)
Definition a_name (n : bytes) : Prop :=
  n <> [] /\ n <> B "." /\ n <> B ".." /\ ~ In "/"%char n.
