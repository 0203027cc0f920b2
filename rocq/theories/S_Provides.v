(** What wrap files provide. *)
From Verif Require Import Base S_Wrap.
Local Arguments B _ : simpl never.

(** without the blanks around it *)
Definition around (c : ascii) : bool := ceqb c " "%char || ceqb c NL || ceqb c TAB.
Fixpoint trim_left (s : bytes) : bytes :=
  match s with [] => [] | c :: t => if around c then trim_left t else s end.
Definition trim (s : bytes) : bytes := rev (trim_left (rev (trim_left s))).

(** the lines of the section [provide] *)
Definition provide_lines (ls : list item) : list (bytes * bytes) :=
  flat_map (fun l => match l with
                     | (Some s, Some kv) => if beqb s (B "provide") then [kv] else []
                     | _ => [] end) ls.

(** the names that a line lists, and what is to be configured for them *)
Definition listed_names (name v : bytes) : list (bytes * list bytes) :=
  map (fun n => (trim n, [name])) (split_on ","%char v).
Definition deps_of (name : bytes) (ls : list item) : list (bytes * list bytes) :=
  flat_map (fun kv : bytes * bytes =>
    let (k, v) := kv in
    if beqb k (B "dependency_names") then listed_names name v
    else if beqb k (B "program_names") then []
    else [(k, [name; v])]) (provide_lines ls).
Definition programs_of (name : bytes) (ls : list item) : list (bytes * list bytes) :=
  flat_map (fun kv : bytes * bytes =>
    let (k, v) := kv in if beqb k (B "program_names") then listed_names name v else []) (provide_lines ls).

(** an entry of the directory: its name, and if it is a file its lines, if it is an ini file *)
Definition entry := (bytes * option (option (list item)))%type.

Definition wrap_name (file : bytes) : option bytes :=
  if beqb (firstn (length file - 5) file ++ B ".wrap") file then Some (firstn (length file - 5) file) else None.

(** what an entry provides, given what the lines of a wrap provide *)
Definition entry_gives (of : bytes -> list item -> list (bytes * list bytes)) (f : entry) : list (bytes * list bytes) :=
  match wrap_name (fst f), snd f with
  | Some n, Some (Some ls) => of n ls
  | _, _ => []
  end.

Definition entry_ok (f : entry) : Prop :=
  forall n, wrap_name (fst f) = Some n ->
  match snd f with
  | None => True
  | Some None => False
  | Some (Some ls) => acceptable ls /\ Forall (fun kv => fst kv <> [] /\ snd kv <> []) (provide_lines ls)
  end.

(** the last one that says something about a name *)
Fixpoint last_about (k : bytes) (es : list (bytes * list bytes)) : option (list bytes) :=
  match es with
  | [] => None
  | (a, v) :: es => match last_about k es with
                    | Some x => Some x
                    | None => if beqb a k then Some v else None
                    end
  end.
