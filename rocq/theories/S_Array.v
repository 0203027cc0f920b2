(** What the array calls mean on plain lists.  A variable holds [Some l], or [None] once the
    array in it has been handed over to another one by the no-copy extension. *)
From Verif Require Import Base.
From Verif Require Import M_Array.

Section S.
Variable equal : nat -> nat -> bool.
Variable str_of : nat -> option bytes.

(** Python-style position of [i] in a list of [n] elements *)
Definition pos (n : nat) (i : Z) : option nat :=
  (if (0 <=? i) && (i <? Z.of_nat n) then Some (Z.to_nat i)
   else if (i <? 0) && (- Z.of_nat n <=? i) then Some (Z.to_nat (i + Z.of_nat n))
   else None)%Z.
Definition nonneg_pos (n : nat) (i : Z) : option nat :=
  (if (0 <=? i) && (i <? Z.of_nat n) then Some (Z.to_nat i) else None)%Z.

Definition set_nth (l : list nat) (i v : nat) := firstn i l ++ v :: skipn (i + 1) l.
Definition del_nth (l : list nat) (i : nat) := firstn i l ++ skipn (i + 1) l.
(** elements i0 to i1, both included *)
Definition slice_list (l : list nat) (i0 i1 : nat) := firstn (i1 + 1 - i0) (skipn i0 l).
(** first occurrences *)
Definition dedup_list (l : list nat) : list nat :=
  fold_left (fun acc v => if existsb (equal v) acc then acc else acc ++ [v]) l [].
Fixpoint strings_of (l : list nat) : option (list bytes) :=
  match l with
  | [] => Some []
  | v :: l => do s <- str_of v; do ss <- strings_of l; Some (s :: ss)
  end.
Definition join_list (l : list nat) (sep : bytes) : option bytes :=
  do ss <- strings_of l; Some (joinb sep ss).

Definition store := list (option (list nat)).
Definition look (s : store) (a : nat) : option (list nat) :=
  match nth_error s a with Some (Some l) => Some l | _ => None end.

Definition spec_step (s : store) (c : call) : option (store * answer) :=
  let fresh (l : list nat) := Some (s ++ [Some l], ANone) in
  let write a (l : list nat) (r : answer) := Some (upd a (Some l) s, r) in
  match c with
  | New => fresh []
  | Push a v => do l <- look s a; write a (l ++ [v]) ANone
  | Prepend a v => do l <- look s a; write a (v :: l) ANone
  | Dup a => do l <- look s a; fresh l
  | Extend a b => do l <- look s a; do m <- look s b; write a (l ++ m) ANone
  | ExtendNodup a b =>
      if a =? b then None else
      do l <- look s a; do m <- look s b; Some (upd b None (upd a (Some (l ++ m)) s), ANone)
  | SetAt a i v => do l <- look s a; do n <- nonneg_pos (length l) i; write a (set_nth l n v) ANone
  | Del a i => do l <- look s a; do n <- nonneg_pos (length l) i; write a (del_nth l n) ANone
  | Pop a => do l <- look s a;
             match rev l with [] => None | v :: r => write a (rev r) (AVal v) end
  | Index a i => do l <- look s a; do n <- nonneg_pos (length l) i; do v <- nth_error l n;
                 Some (s, AVal v)
  | Slice a i0 i1 => do l <- look s a; do n0 <- pos (length l) i0; do n1 <- pos (length l) i1;
                     fresh (slice_list l n0 n1)
  | Dedup a => do l <- look s a; fresh (dedup_list l)
  | Contains a v => do l <- look s a; Some (s, ABool (existsb (equal v) l))
  | Join a sep => do l <- look s a; Some (s, AStr (join_list l sep))
  | Length a => do l <- look s a; Some (s, ANum (length l))
  | Elements a => do l <- look s a; Some (s, AList l)
  end.

Fixpoint spec_run (s : store) (cs : list call) : option (store * list answer) :=
  match cs with
  | [] => Some (s, [])
  | c :: cs => do (s, r) <- spec_step s c; do (s, rs) <- spec_run s cs; Some (s, r :: rs)
  end.

(** the one call the code gets wrong: taking the first element off a two-element array *)
Definition shrinks_pair (s : store) (c : call) : bool :=
  match c with
  | Del a i => match look s a with Some l => (i =? 0)%Z && (length l =? 2) | None => false end
  | _ => false
  end.
Fixpoint never_shrinks_pair (s : store) (cs : list call) : Prop :=
  match cs with
  | [] => True
  | c :: cs => shrinks_pair s c = false /\
               forall s' r, spec_step s c = Some (s', r) -> never_shrinks_pair s' cs
  end.
End S.
