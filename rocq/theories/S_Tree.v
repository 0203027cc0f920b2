(** Search trees: the in-order listing, sortedness, real heights, balance. *)
From Verif Require Import Base M_Tree.
From Coq Require Import Sorting.Sorted.

Section S.
Context {V : Type}.

Fixpoint inorder (t : tree V) : list (bytes * V) :=
  match t with Leaf => [] | Node l k v _ r => inorder l ++ (k, v) :: inorder r end.

(** bytewise lexicographic order *)
Inductive blt : bytes -> bytes -> Prop :=
| blt_nil y b : blt [] (y :: b)
| blt_head x a y b : cval x < cval y -> blt (x :: a) (y :: b)
| blt_tail x a b : blt a b -> blt (x :: a) (x :: b).

Definition ordered (t : tree V) : Prop := StronglySorted blt (map fst (inorder t)).

(** the longest path, computed without the recorded heights *)
Fixpoint depth (t : tree V) : nat :=
  match t with Leaf => 0 | Node l _ _ _ r => S (Nat.max (depth l) (depth r)) end.

Fixpoint balanced (t : tree V) : Prop :=
  match t with
  | Leaf => True
  | Node l _ _ _ r => balanced l /\ balanced r /\ depth l <= depth r + 1 /\ depth r <= depth l + 1
  end.

Definition size (t : tree V) : nat := length (inorder t).

(** the last value given for a key in a list of insertions *)
Definition last_value (kvs : list (bytes * V)) (key : bytes) : option V :=
  fold_left (fun acc kv => if beqb (fst kv) key then Some (snd kv) else acc) kvs None.
End S.
