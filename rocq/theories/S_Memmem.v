(** What it means to search for a string. *)
From Verif Require Import Base.

(** [n] occurs in [h] at offset [o] *)
Definition occurs_at (n h : bytes) (o : nat) : Prop :=
  exists before after, h = before ++ n ++ after /\ length before = o.
(** the answer of a search: the first offset of an occurrence, or nothing if there is none *)
Definition first_occurrence (n h : bytes) (r : option nat) : Prop :=
  match r with
  | Some o => occurs_at n h o /\ forall o', occurs_at n h o' -> o <= o'
  | None => forall o, ~ occurs_at n h o
  end.
