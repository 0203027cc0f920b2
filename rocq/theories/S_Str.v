(** What the string methods are meant to do, independently of the code. *)
From Verif Require Import Base.

(** [x] occurs in [s] *)
Definition occurs (x s : bytes) : Prop := exists a b, s = a ++ x ++ b.

(** [s] cut at the leftmost non-overlapping occurrences of [sep] *)
Inductive leftmost_split (sep : bytes) : bytes -> list bytes -> Prop :=
| LS_last s : ~ occurs sep s -> leftmost_split sep s [s]
| LS_cut s p r ps :
    s = p ++ sep ++ r ->
    (forall a b, s = a ++ sep ++ b -> length p <= length a) ->     (* leftmost *)
    leftmost_split sep r ps -> leftmost_split sep s (p :: ps).

(** pieces of [s] between bytes satisfying [f] *)
Fixpoint cut_at (f : ascii -> bool) (s : bytes) : list bytes :=
  match s with
  | [] => [[]]
  | c :: s' => if f c then [] :: cut_at f s'
               else match cut_at f s' with [] => [[c]] | h :: t => (c :: h) :: t end
  end.
Definition nonempty (l : bytes) : bool := match l with [] => false | _ => true end.
Definition is_space (c : ascii) : bool := ceqb c " "%char || ceqb c TAB || ceqb c NL || ceqb c CR.

(** Python-style slice bounds: negative indices count from the end, then clamp to 0..len *)
Definition py_bound (len z : Z) : Z := Z.max 0 (Z.min len (if z <? 0 then len + z else z)%Z).
Definition py_slice (s : bytes) (a b : Z) : bytes :=
  let len := Z.of_nat (length s) in
  let a := py_bound len a in let b := py_bound len b in
  firstn (Z.to_nat (b - a)) (skipn (Z.to_nat a) s).

(** glob matching: each star stands for some string *)
Inductive gmatch : bytes -> bytes -> Prop :=
| GM_nil : gmatch [] []
| GM_star p x t : gmatch p t -> gmatch ("*"%char :: p) (x ++ t)
| GM_char c p t : c <> "*"%char -> gmatch p t -> gmatch (c :: p) (c :: t).

(** the ASCII letters, as a table *)
Definition lowers : bytes := B "abcdefghijklmnopqrstuvwxyz".
Definition uppers : bytes := B "ABCDEFGHIJKLMNOPQRSTUVWXYZ".
Definition digits : bytes := B "0123456789".
Fixpoint lookup (t : list (ascii * ascii)) (c : ascii) : ascii :=
  match t with [] => c | (a, b) :: t' => if ceqb a c then b else lookup t' c end.
Definition upper_of (c : ascii) : ascii := lookup (combine lowers uppers) c.
Definition lower_of (c : ascii) : ascii := lookup (combine uppers lowers) c.
Definition word_char (c : ascii) : bool := mem_char c (lowers ++ uppers ++ digits).
