(** What a path means, independently of the code.

    A path is a sequence of components separated by slashes.  Empty components and "."
    do not move; every other component is a step.  A path starting with a slash is
    absolute. *)
From Verif Require Import Base.

Definition is_abs (p : bytes) : bool :=
  match p with c :: _ => ceqb c "/"%char | [] => false end.

Definition moves (c : bytes) : bool := negb (beqb c []) && negb (beqb c (B ".")).

(** The steps a path takes. *)
Definition comps (p : bytes) : list bytes := filter moves (split_on "/"%char p).

(** The canonical text for a kind and a list of steps. *)
Definition render (abs : bool) (cs : list bytes) : bytes :=
  if abs then "/"%char :: joinb (B "/") cs
  else match cs with
       | [] => B "."
       | _ => joinb (B "/") cs
       end.

(** Lexical resolution: [(u, st)] means "go up u levels, then down the list st". *)
Definition is_up (c : bytes) : bool := beqb c (B "..").

Definition walk1 (acc : nat * list bytes) (c : bytes) : nat * list bytes :=
  let '(u, st) := acc in
  if is_up c then
    match st with
    | [] => (S u, [])
    | _ => (u, removelast st)
    end
  else (u, st ++ [c]).

Definition walk (cs : list bytes) : nat * list bytes := fold_left walk1 cs (0, []).

(** Location of an absolute path, as the list of directory names below the root; going up
    from the root stays at the root. *)
Definition location (p : bytes) : list bytes := snd (walk (comps p)).

(** List prefix. *)
Definition prefix_of {A} (a b : list A) : Prop := exists r, b = a ++ r.
