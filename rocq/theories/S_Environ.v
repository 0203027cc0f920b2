(** What operations on environment variables mean. *)
From Verif Require Import Base M_Environ.

(** the value of a variable after one operation *)
Definition after (old : option bytes) (c : call) : option bytes :=
  let s := match c_sep c with Some s => s | None => B ":" end in
  let v := joinb s (c_vals c) in
  match c_mode c, old with
  | Set_, _ | _, None => Some v
  | Append, Some o => Some (o ++ s ++ v)
  | Prepend, Some o => Some (v ++ s ++ o)
  end.

(** after those operations of a sequence that are about it *)
Fixpoint replay (k : bytes) (old : option bytes) (l : list call) : option bytes :=
  match l with
  | [] => old
  | c :: l => replay k (if list_eq_dec Ascii.ascii_dec (c_key c) k then after old c else old) l
  end.

(** calls that can be: strings have no NUL bytes, names are not empty and have no '=', there is a
    value *)
Definition no_nul (s : bytes) : Prop := ~ In NUL s.
Definition is_name (k : bytes) : Prop := no_nul k /\ k <> [] /\ ~ In "="%char k.
Definition call_ok (c : call) : Prop :=
  is_name (c_key c) /\ Forall no_nul (c_vals c) /\ c_vals c <> [] /\ (forall s, c_sep c = Some s -> no_nul s).

(** the value of the last of the strings 'k=...' *)
Fixpoint last_of (k : bytes) (old : option bytes) (l : list bytes) : option bytes :=
  match l with
  | [] => old
  | s :: l => last_of k (if starts_with (k ++ B "=") s then Some (skipn (length k + 1) s) else old) l
  end.
