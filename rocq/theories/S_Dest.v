(** Where installed files should go. *)
From Coq Require Import NArith.
From Verif Require Import Base S_Path M_Install S_Install M_Dest.

(** the directories passed through on the way along several paths, each seen from where the one before leads *)
Definition along (ps : list bytes) : list bytes :=
  fold_left (fun at_ p => if is_abs p then comps p else at_ ++ comps p) ps [].
(** install_mode: not given, or a list of up to three elements that starts with a boolean or with what ls -l prints *)
Definition mode_means (mode : option (list mode_elem)) (perm : option N) : Prop :=
  match mode with
  | None => perm = None
  | Some (MBool _ :: rest) => length rest <= 2 /\ perm = None
  | Some (MStr s :: rest) => length rest <= 2 /\ exists m, (m < 4096)%N /\ s = ls_l m /\ perm = Some m
  | Some _ => False
  end.
(** [p] is the path of the file an argument stands for *)
Definition the_file (cwd : bytes) (i : item) (p : bytes) : Prop :=
  match i with
  | IStr s => is_abs p = true /\ location p = snd (walk (along [cwd; s]))
  | IFile q => p = q
  end.
(** there is such a file; [there] says at which places files are *)
Definition there_is (there : list bytes -> bool) (cwd : bytes) (i : item) : Prop :=
  match i with IStr s => there (snd (walk (along [cwd; s]))) = true | IFile _ => True end.
(** the last part of a path *)
Definition last_name (p n : bytes) : Prop := n <> B ".." /\ exists front, comps p = front ++ [n].
(** files given as objects have names *)
Definition has_name (i : item) : Prop := match i with IFile p => exists n, last_name p n | IStr _ => True end.
Definition outputs_have_names (s : source) : Prop :=
  match s with SItem i => has_name i | SOutputs ps => forall p, In p ps -> exists n, last_name p n end.

(** the default is copied, with the given mode, to an absolute path *)
Definition put_at (perm : option N) (place : list bytes) (t : target) : Prop :=
  tkind t = KDefault /\ tperm t = perm /\ tbuild t = false /\ is_abs (tdest t) = true /\ comps (tdest t) = place.
(** a file goes below a directory under its own name, or under the path it was given with *)
Definition goes_below (cwd : bytes) (dir : list bytes) (preserve : bool) (perm : option N) (i : item) (t : target) : Prop :=
  the_file cwd i (tsrc t) /\
  if preserve then exists s, i = IStr s /\ put_at perm (along (dir ++ [s])) t
  else exists n, last_name (tsrc t) n /\ put_at perm (along dir ++ [n]) t.
Definition headers_go (d : dirs) (a : header_args) : list bytes :=
  [d_prefix d; match h_dir a with Some s => s | None => d_include d end] ++ match h_subdir a with Some s => [s] | None => [] end.
Definition data_goes (d : dirs) (a : data_args) : list bytes :=
  [d_prefix d] ++ match a_dir a with Some s => [s] | None => [d_data d; d_project d] end.
Definition is_on (b : option bool) : bool := match b with Some true => true | _ => false end.

(** a manual page: name.section *)
Definition man_page (n stem : bytes) (c : ascii) : Prop :=
  n = stem ++ B "." ++ [c] /\ stem <> [] /\ In c (B "0123456789").
(** name.locale.section becomes name.section, other names stay *)
Definition without_locale (lc n m : bytes) : Prop :=
  (exists x c, n = x ++ B "." ++ lc ++ B "." ++ [c] /\ m = x ++ B "." ++ [c]) \/
  ((forall x c, n <> x ++ B "." ++ lc ++ B "." ++ [c]) /\ m = n).
(** name.section, or name.locale.section, or name.other.section where the other part does not start like the locale *)
Definition simple_for (lc n : bytes) : Prop :=
  ~ In "."%char lc /\
  exists x c, ~ In "."%char x /\ In c (B "0123456789") /\
    (n = x ++ B "." ++ [c] \/
     exists z, ~ In "."%char z /\ n = x ++ B "." ++ z ++ B "." ++ [c] /\ (z = lc \/ forall r, z <> lc ++ r)).
(** where a page goes *)
Definition page_goes (d : dirs) (dir locale : option bytes) (n : bytes) (place : list bytes) : Prop :=
  exists stem c, man_page n stem c /\
  match dir, locale with
  | Some s, _ => place = along [d_prefix d; s] ++ [n]
  | None, None => place = along [d_prefix d; d_man d] ++ [B "man" ++ [c]; n]
  | None, Some lc => exists m, without_locale lc n m /\ place = along [d_prefix d; d_man d; lc] ++ [B "man" ++ [c]; m]
  end.
(** the files that several arguments stand for, in order *)
Inductive stand_for (cwd : bytes) : list source -> list bytes -> Prop :=
| no_sources : stand_for cwd [] []
| one_item i p l ps : the_file cwd i p -> stand_for cwd l ps -> stand_for cwd (SItem i :: l) (p :: ps)
| its_outputs qs l ps : stand_for cwd l ps -> stand_for cwd (SOutputs qs :: l) (qs ++ ps).
Definition source_is_there (there : list bytes -> bool) (cwd : bytes) (s : source) : Prop :=
  match s with SItem i => there_is there cwd i | SOutputs _ => True end.
