(** Specifications for allocators: regions, and a growable list with save points. *)
From Verif Require Import Base M_Arena.

(** two regions (block, offset, size) share no byte *)
Definition disjoint (r1 r2 : nat * N * N) : Prop :=
  let '(b1, o1, s1) := r1 in let '(b2, o2, s2) := r2 in
  b1 <> b2 \/ (o1 + s1 <= o2)%N \/ (o2 + s2 <= o1)%N.

(** the list a history of pushes, saves and restores stands for; [None] when a save point is
    restored that is not there, or that is longer than the list now is *)
Section S.
Context {A : Type}.
Definition bspec_step (st : list A * list nat) (o : bop A) : option (list A * list nat) :=
  let '(l, saves) := st in
  match o with
  | BPush x => Some (l ++ [x], saves)
  | BSave => Some (l, saves ++ [length l])
  | BRestore n => match nth_error saves n with
                  | Some k => if k <=? length l then Some (firstn k l, saves) else None
                  | None => None
                  end
  end.
Fixpoint bspec (st : list A * list nat) (ops : list (bop A)) : option (list A * list nat) :=
  match ops with
  | [] => Some st
  | o :: ops' => match bspec_step st o with Some st' => bspec st' ops' | None => None end
  end.
End S.
