(** What a user of string buffers and strings relies on: a buffer holds what was put in since it
    was last cleared, and a string is the text that was put in. *)
From Coq Require Import NArith.
From Verif Require Import Base M_Sbuf.

(** the text of a history *)
Definition adds (t : bytes) (o : op) : bytes :=
  match o with
  | Clear => []
  | Push c => t ++ [c]
  | Pushn s | Pushs s | Pushf s => t ++ s
  end.

Definition text (os : list op) : bytes := fold_left adds os [].

(** the sizes that a buffer which begins with [c] bytes can grow to *)
Definition grown_size (c : N) (n : N) : Prop :=
  exists j : N, (1 <= j /\ n = (if c =? 0 then 1024 else c) * 2 ^ j)%N.

(** no formatted text ends exactly at such a size *)
Definition avoids_sizes (c : N) (os : list op) : Prop :=
  forall before s after, os = before ++ Pushf s :: after ->
    ~ grown_size c (nlen (text (before ++ [Pushf s]))).

(** the texts are never of 2 GiB *)
Definition below_2g (os : list op) : Prop :=
  forall before after, os = before ++ after -> (nlen (text before) < 2147483646)%N.

(** what is appended to a string by an operation, and to which *)
Definition target (x : sop) : option nat :=
  match x with Make _ | CloneMutable _ => None | App o _ | AppStr o _ => Some o end.

(** the text that the result of an operation has *)
Definition gives (texts : nat -> option bytes) (x : sop) : option bytes :=
  match x with
  | Make p => Some p
  | CloneMutable o => texts o
  | App o d => match texts o with Some t => Some (t ++ d) | None => None end
  | AppStr o src => match texts o, texts src with
                    | Some t, Some d => Some (t ++ d)
                    | _, _ => None
                    end
  end.

(** the text of a string is followed by a NUL in its memory *)
Definition terminated (h : heap) (o : nat) : Prop :=
  exists s m, nth_error (strs h) o = Some s /\ nth_error (regs h) (sreg s) = Some (Some m)
    /\ nth_error m (N.to_nat (stlen s)) = Some NUL.

(** no string of a history gets 2 GiB long, and none is appended to itself *)
Definition small_history (mark : bool) (xs : list sop) : Prop :=
  forall before x after, xs = before ++ x :: after ->
    (forall o, x <> AppStr o o)
    /\ forall h os t, srun mark heap0 before = Ok (h, os) -> gives (read h) x = Some t ->
         (nlen t < 2147483648)%N.
