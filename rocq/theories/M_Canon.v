(** Model of samu_canonpath (src/external/samurai/util.c 229-287).

    The code rewrites the path in place: the write position never passes the read position,
    because every branch writes at most the bytes it has just read.  The model keeps what has
    been written ([out]) apart from what is still to be read.  Paths contain no NUL. *)
From Verif Require Import Base.

Inductive canon_result := CDone (out : bytes) | CFatal | CNoFuel.

(** the next byte is '/' or the terminating NUL *)
Definition at_end (l : bytes) : bool := match l with [] => true | x :: _ => ceqb x "/"%char end.
(** the byte at the read position, when it is '/' or NUL *)
Definition sep_byte (l : bytes) : ascii := match l with [] => NUL | _ => "/"%char end.

(** util.c 245-279; [stk] is component[n-1], ..., component[0] as lengths of [out] *)
Fixpoint canon_loop (fuel : nat) (s out : bytes) (stk : list nat) : canon_result :=
  match fuel with
  | 0 => CNoFuel
  | S fuel' =>
      match s with
      | [] => CDone out
      | c :: s1 =>
          if ceqb c "/"%char then canon_loop fuel' s1 out stk
          else if ceqb c "."%char && at_end s1 then canon_loop fuel' (tl s1) out stk
          else if ceqb c "."%char && match s1 with x :: s2 => ceqb x "."%char && at_end s2 | [] => false end then
            match stk with
            | d :: stk' => canon_loop fuel' (tl (tl s1)) (firstn d out) stk'
            | [] => canon_loop fuel' (tl (tl s1)) (out ++ B ".." ++ [sep_byte (tl s1)]) []
            end
          else if length stk =? 60 then CFatal
          else let '(comp, rest) := break_at "/"%char s in
               canon_loop fuel' (tl rest) (out ++ comp ++ [sep_byte rest]) (length out :: stk)
      end
  end.

(** util.c 229-287; [None]: samu_fatal *)
Definition canonpath (p : bytes) : option bytes :=
  match p with
  | [] => None
  | c :: p' =>
      let '(s, out) := if ceqb c "/"%char then (p', B "/") else (p, []) in
      match canon_loop (S (length s)) s out [] with
      | CDone [] => Some (B ".")
      | CDone o => Some (removelast o)
      | CFatal => None
      | CNoFuel => None
      end
  end.
