(** Glob patterns: a star stands for any string, every other character for itself. *)
From Verif Require Import Base.

Inductive matches : bytes -> bytes -> Prop :=
| mt_nil : matches [] []
| mt_char c p s : c <> "*"%char -> matches p s -> matches (c :: p) (c :: s)
| mt_star p w s : matches p s -> matches ("*"%char :: p) (w ++ s).
