(** What the documentation says of find_program(). *)
From Verif Require Import Base S_Str M_Path S_Version M_Feature S_Feature M_Findprog.
Local Arguments B _ : simpl never.

(** a version that meets what the call asks for *)
Definition meets (versions : option (list bytes)) (v : bytes) : Prop :=
  match versions with None => True | Some reqs => reqs <> [] /\ Forall (requirement_holds v) reqs end.

(** the first entry for a name *)
Definition first_for {A} (n : bytes) (l : list (bytes * A)) (x : A) : Prop :=
  exists l1 l2, l = l1 ++ (n, x) :: l2 /\ forall y, ~ In (n, y) l1.
Definition none_for {A} (n : bytes) (l : list (bytes * A)) : Prop := forall y, ~ In (n, y) l.

(** an override gives a program to a call that asks for some versions: nothing is asked of those
    whose version is not known *)
Definition offers (w : world) (versions : option (list bytes)) (x : given) (p : program) : Prop :=
  match x with
  | GFile f v => p = Command [f] /\ forall u, v = Some u -> meets versions u
  | GTarget t v => p = Target t /\ forall u, v = Some u -> meets versions u
  | GProgram found cmd => found = true /\ p = Command cmd /\ forall u, version_of w cmd = Some u -> meets versions u
  | GPython cmd => p = Command cmd /\ forall u, version_of w cmd = Some u -> meets versions u
  end.

(** the places where a program may be: regular files in the directories given and the directory of
    the build file, then executables in PATH, or at the path that the name is *)
Inductive place := Regular (p : option bytes) | Executable (p : option bytes).
Definition places (w : world) (dirs : list bytes) (n : bytes) : list place :=
  map (fun d => Regular (join_paths [d; n])) dirs
  ++ [Regular (join_paths [source_dir w; n])]
  ++ (if mem_char "/"%char n then [Executable (join_paths [started_in w; n])]
      else match env_path w with
           | None => []
           | Some e => map (fun d => Executable (path_push d n)) (split_on ":"%char e)
           end).
Definition there (w : world) (x : place) (p : bytes) : Prop :=
  match x with
  | Regular q => q = Some p /\ is_file w p = true
  | Executable q => q = Some p /\ is_exe w p = true
  end.
Definition first_there (w : world) (l : list place) (p : bytes) : Prop :=
  exists l1 x l2, l = l1 ++ x :: l2 /\ there w x p /\ Forall (fun y => forall q, ~ there w y q) l1.
Definition none_there (w : world) (l : list place) : Prop := Forall (fun y => forall q, ~ there w y q) l.
(** the program at a path is what the call asks for *)
Definition suits (w : world) (versions : option (list bytes)) (p : bytes) : Prop :=
  versions = None \/ exists v, version_of w [p] = Some v /\ meets versions v.

(** the names of programs that muon itself can be *)
Definition is_samurai (w : world) (n : bytes) : Prop := samurai w = true /\ (n = B "ninja" \/ n = B "samu").

(** ** Versions in what programs say *)
Definition version_char (c : ascii) : bool := mem_char c (B "0123456789.").
(** the words of digits and dots *)
Definition words (s : bytes) : list bytes := cut_at (fun c => negb (version_char c)) s.
Definition count_dots (s : bytes) : nat := length (split_on "."%char s) - 1.

(** ** The keyword required: *)
Definition required (g : option state) (kw : option kwarg) : Prop :=
  kw = None \/ kw = Some (KBool true) \/ exists fo, kw = Some (KFeature fo) /\ seen g fo Enabled.
Definition optional (g : option state) (kw : option kwarg) : Prop :=
  kw = Some (KBool false) \/ exists fo, kw = Some (KFeature fo) /\ seen g fo Auto.
Definition disabled (g : option state) (kw : option kwarg) : Prop := exists fo, kw = Some (KFeature fo) /\ seen g fo Disabled.
