(** Model of what wrap files provide: src/wrap.c 124-220, 690-763.

    Dictionaries are lists of keys and values.  Warnings are left out. *)
From Verif Require Import Base M_Str M_Path M_Sha M_Wrap.
Local Arguments B _ : simpl never.

(** wrap_provides_deps and wrap_provides_exes: what to configure for a name *)
Definition table := list (bytes * list bytes).

(** obj_dict_set (src/lang/object.c 1245-1336), obj_dict_index *)
Fixpoint tset (k : bytes) (v : list bytes) (t : table) : table :=
  match t with
  | [] => [(k, v)]
  | (a, x) :: t => if beqb a k then (a, v) :: t else (a, x) :: tset k v t
  end.
Fixpoint tget (k : bytes) (t : table) : option (list bytes) :=
  match t with [] => None | (a, x) :: t => if beqb a k then Some x else tget k t end.

(** str_split_strip (src/lang/string.c 516-543) with "," and no characters to strip *)
Fixpoint strip_each (l : list bytes) : option (list bytes) :=
  match l with
  | [] => Some []
  | s :: l => match str_strip s None, strip_each l with
              | Some r, Some rs => Some (r :: rs)
              | _, _ => None
              end
  end.
Definition split_strip (v : bytes) : option (list bytes) :=
  match str_split (S (length v)) v (B ",") with Some ps => strip_each ps | None => None end.

(** 148-157 wrap_parse_provides_cb_add_provides_iter *)
Definition add_provides (name : bytes) (l : list bytes) (t : table) : table :=
  fold_left (fun t n => tset n [name] t) l t.

(** 159-220 wrap_parse_provides_cb; the state is the section and the two tables, [None] is an error
    or an abort *)
Definition provides_cb (name : bytes) (s : wtype * table * table) (l : line) : option (wtype * table * table) :=
  let '(sec, deps, exes) := s in
  match l with
  | (None, _) => None
  | (Some x, None) => match section_of x with Some t => Some (t, deps, exes) | None => None end
  | (Some _, Some (k, v)) =>
      match sec with
      | TProvide =>
          if beqb k [] || beqb v [] then None
          else if beqb k (B "dependency_names")
          then match split_strip v with Some l => Some (sec, add_provides name l deps, exes) | None => None end
          else if beqb k (B "program_names")
          then match split_strip v with Some l => Some (sec, deps, add_provides name l exes) | None => None end
          else Some (sec, tset k [name; v] deps, exes)
      | _ => Some s
      end
  end.
Fixpoint provides_lines (name : bytes) (s : wtype * table * table) (ls : list line) : option (wtype * table * table) :=
  match ls with
  | [] => Some s
  | l :: ls => match provides_cb name s l with Some s => provides_lines name s ls | None => None end
  end.

(** 697-741 wrap_load_all_iter: an entry of the directory is its name and, if it is a file, its
    lines, or [None] if it is not an ini file.  The name of the wrap is that of the file without
    its ending (wrap_parse, 449-456). *)
Definition load_iter (t : table * table) (f : bytes * option (option (list line))) : option (table * table) :=
  let '(file, content) := f in
  if negb (str_endswith file (B ".wrap")) then Some t
  else match content with
       | None => Some t
       | Some None => None
       | Some (Some ls) =>
           match wrap_parse ls with
           | None => None
           | Some c =>
               if negb (has_provides c) then Some t
               else match provides_lines (firstn (length file - 5) file) (TFile, fst t, snd t) ls with
                    | Some (_, d, e) => Some (d, e)
                    | None => None
                    end
           end
       end.

(** 743-763 wrap_load_all_provides of a directory that exists, into new dictionaries *)
Fixpoint load_from (t : table * table) (fs : list (bytes * option (option (list line)))) : option (table * table) :=
  match fs with
  | [] => Some t
  | f :: fs => match load_iter t f with Some t => load_from t fs | None => None end
  end.
Definition load_all := load_from ([], []).
