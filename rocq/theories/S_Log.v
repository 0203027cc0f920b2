(** What the build log means. *)
From Verif Require Import Base.
From Coq Require Import NArith.

(** an output, the time stamp and the hash of its command *)
Definition logfact := (bytes * Z * N)%type.
(** what the last record of [q] says; [d] if there is none *)
Fixpoint last_fact (rs : list logfact) (q : bytes) (d : Z * N) : Z * N :=
  match rs with
  | [] => d
  | (p, m, h) :: rs' => last_fact rs' q (if beqb p q then (m, h) else d)
  end.
(** paths are not empty and have no tabs, newlines or NULs *)
Definition path_fine (p : bytes) : Prop := p <> [] /\ ~ In TAB p /\ ~ In NL p /\ ~ In NUL p.
Definition fact_fine (r : logfact) : Prop :=
  let '(p, m, h) := r in path_fine p /\ (- 2 ^ 63 <= m < 2 ^ 63)%Z /\ (h < 2 ^ 64)%N.
(** the number of records that are complete in the first [k] bytes, if their lengths are [ls] *)
Fixpoint fitting (k : nat) (ls : list nat) : nat :=
  match ls with
  | [] => 0
  | l :: ls' => if l <=? k then S (fitting (k - l) ls') else 0
  end.
Definition prefix (a b : bytes) : Prop := exists c, b = a ++ c.
