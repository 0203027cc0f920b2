(** Glob patterns of muon test: src/lang/string.c 258-308.  A string is the list of its bytes; the byte after
    the last one is NUL. *)
From Verif Require Import Base.

(** [None]: out of fuel; [Some None]: no match; [Some (Some n)]: match_len *)
Definition STAR : ascii := "*"%char.
(** 258-301 str_eql_glob_impl; [p] is ss1, [s] is ss2 *)
Fixpoint impl (fuel : nat) (top : bool) (p s : bytes) : option (option nat) :=
  match fuel with
  | 0 => None
  | S fuel =>
      if (match p with [] => true | _ => false end) && negb top then Some (Some (length s))
      else if match s with [] => true | _ => false end then Some (Some 0)
      else loop fuel p s 0
  end
(** 273-299; [p] and [s] are what is left of the strings at i1 and i2 *)
with loop (fuel : nat) (p s : bytes) (match_len : nat) : option (option nat) :=
  match fuel with
  | 0 => None
  | S fuel =>
      match p with
      | [] => Some (Some match_len)
      | c :: p =>
          if ceqb c STAR then
            match scan fuel p s 0 with
            | Some (sub, consumed, s) =>
                let sub := if sub =? 0 then sub else sub + consumed in
                loop fuel (skipn sub p) s (match_len + sub)
            | None => None
            end
          else if ceqb c (hd NUL s) then loop fuel p (tl s) (S match_len)
          else Some None
      end
  end
(** 279-284 *)
with scan (fuel : nat) (p s : bytes) (consumed : nat) : option (nat * nat * bytes) :=
  match fuel with
  | 0 => None
  | S fuel =>
      match impl fuel false p s with
      | None => None
      | Some (Some sub) => Some (sub, consumed, s)
      | Some None => scan fuel p (tl s) (S consumed)
      end
  end.
(** 303-308 *)
Definition str_eql_glob (fuel : nat) (p s : bytes) : option bool :=
  match impl fuel true p s with
  | None => None
  | Some None => Some false
  | Some (Some n) => Some (n =? length s)
  end.
