(** What '...'.format(args) means.  Reading from the left: a backslash followed by '@' is a
    literal '@'; an '@' followed by a key and another '@' is replaced by what the key stands
    for; an '@' that does not open such a reference, and every other byte, stands for itself. *)
From Verif Require Import Base M_Format.

(** how the text after an '@' goes on: up to the next '@', or to an escaped one, or to the end *)
Inductive after_at := Closed (key rest : bytes) | Escaped | Open.
Fixpoint scan_key (s key : bytes) : after_at :=
  match s with
  | [] => Open
  | c :: r => if ceqb c "@"%char then Closed key r
              else if ceqb c BSLASH && (match r with x :: _ => ceqb x "@"%char | [] => false end) then Escaped
              else scan_key r (key ++ [c])
  end.

Section Spec.
Variable meaning : bytes -> cb_result.   (* what a key stands for *)

Fixpoint fmt_spec (n : nat) (s : bytes) : option bytes :=
  match n with
  | 0 => None
  | S n' =>
      match s with
      | [] => Some []
      | c :: r =>
          if ceqb c BSLASH && (match r with x :: _ => ceqb x "@"%char | [] => false end)
          then option_map (cons "@"%char) (fmt_spec n' (tl r))
          else if ceqb c "@"%char then
            match scan_key r [] with
            | Closed ((_ :: _) as key) rest =>
                match meaning key with
                | CbFound t => option_map (app t) (fmt_spec n' rest)
                | CbSkip => option_map (cons c) (fmt_spec n' r)
                | _ => None                                    (* error *)
                end
            | _ => option_map (cons c) (fmt_spec n' r)
            end
          else option_map (cons c) (fmt_spec n' r)
      end
  end.
Definition format_spec (s : bytes) : option bytes := fmt_spec (S (length s)) s.

(** no '@' is left open when an escaped '@' comes *)
Fixpoint fmt_clean (n : nat) (s : bytes) : bool :=
  match n with
  | 0 => true
  | S n' =>
      match s with
      | [] => true
      | c :: r =>
          if ceqb c BSLASH && (match r with x :: _ => ceqb x "@"%char | [] => false end) then fmt_clean n' (tl r)
          else if ceqb c "@"%char then
            match scan_key r [] with
            | Escaped => false
            | Closed ((_ :: _) as key) rest =>
                match meaning key with
                | CbFound _ => fmt_clean n' rest
                | _ => fmt_clean n' r
                end
            | _ => fmt_clean n' r
            end
          else fmt_clean n' r
      end
  end.
Definition format_clean (s : bytes) : bool := fmt_clean (S (length s)) s.
End Spec.

(** ** numbers *)
(** the value of a run of decimal digits *)
Definition dec_value (ds : bytes) : Z := fold_left (fun a c => (a * 10 + (Z.of_nat (cval c) - 48))%Z) ds 0%Z.
Definition all_digits (ds : bytes) : Prop := ds <> [] /\ forallb is_digit ds = true.
(** [k] reads as the integer [z]: blanks, an optional sign, decimal digits *)
Definition reads_as (k : bytes) (z : Z) : Prop :=
  exists ws sg ds, k = ws ++ sg ++ ds /\ forallb c_isspace ws = true /\ all_digits ds /\
    ((sg = [] \/ sg = B "+") /\ z = dec_value ds \/ sg = B "-" /\ z = (- dec_value ds)%Z).
(** Python-like indexing *)
Definition py_index {A} (l : list A) (i : Z) : option A :=
  let n := Z.of_nat (length l) in
  if (0 <=? i)%Z then nth_error l (Z.to_nat i)
  else if (- n <=? i)%Z then nth_error l (Z.to_nat (n + i)) else None.
