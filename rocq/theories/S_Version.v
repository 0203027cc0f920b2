(** The segment rule for comparing versions, independently of the code.

    A version is cut into maximal runs of digits, of letters, and of separators (anything
    else).  Digit runs count by value, letter runs bytewise; separators only separate. *)
From Verif Require Import Base.

Inductive kind := KDigit | KLetter | KSep.

Definition kind_of (c : ascii) : kind :=
  if is_digit c then KDigit else if is_alpha c then KLetter else KSep.

Definition kind_eqb (a b : kind) : bool :=
  match a, b with
  | KDigit, KDigit | KLetter, KLetter | KSep, KSep => true
  | _, _ => false
  end.

(** Maximal runs of bytes of the same kind. *)
Fixpoint runs (l : bytes) : list (kind * bytes) :=
  match l with
  | [] => []
  | c :: l' =>
      match runs l' with
      | (k, w) :: rest =>
          if kind_eqb (kind_of c) k then (k, c :: w) :: rest
          else (kind_of c, [c]) :: (k, w) :: rest
      | [] => [(kind_of c, [c])]
      end
  end.

(** Value of a decimal digit string. *)
Definition decimal (w : bytes) : N :=
  fold_left (fun acc c => (acc * 10 + (N_of_ascii c - 48))%N) w 0%N.

Inductive seg := Num (n : N) | Word (w : bytes).

Definition segs_of_run (r : kind * bytes) : list seg :=
  match r with
  | (KDigit, w) => [Num (decimal w)]
  | (KLetter, w) => [Word w]
  | (KSep, _) => []
  end.

Definition segments (v : bytes) : list seg := flat_map segs_of_run (runs v).

(** Does the version end in a separator? *)
Definition ends_in_sep (v : bytes) : bool :=
  match v with
  | [] => false
  | _ => match kind_of (last v NUL) with KSep => true | _ => false end
  end.

Fixpoint bytes_cmp (a b : bytes) : comparison :=
  match a, b with
  | [], [] => Eq
  | [], _ => Lt
  | _, [] => Gt
  | x :: a', y :: b' =>
      match Nat.compare (cval x) (cval y) with
      | Eq => bytes_cmp a' b'
      | c => c
      end
  end.

Definition seg_cmp (a b : seg) : comparison :=
  match a, b with
  | Num m, Num n => N.compare m n
  | Word v, Word w => bytes_cmp v w
  | Num _, Word _ => Gt
  | Word _, Num _ => Lt
  end.

(** First differing segment decides; otherwise the one with more left is newer. *)
Fixpoint segs_cmp (a b : list seg) : comparison :=
  match a, b with
  | [], [] => Eq
  | [], _ => Lt
  | _, [] => Gt
  | x :: a', y :: b' =>
      match seg_cmp x y with
      | Eq => segs_cmp a' b'
      | c => c
      end
  end.

(** "More left" includes trailing separators when all segments are equal. *)
Definition version_cmp (a b : bytes) : comparison :=
  match segs_cmp (segments a) (segments b) with
  | Eq => match ends_in_sep a, ends_in_sep b with
          | true, false => Gt
          | false, true => Lt
          | _, _ => Eq
          end
  | c => c
  end.

Definition sign (c : comparison) : Z :=
  match c with Eq => 0 | Lt => -1 | Gt => 1 end.

(** What a requirement such as ">=1.2" means for a version. *)
Definition requirement_holds (ver req : bytes) : Prop :=
  match req with
  | ">"%char :: "="%char :: v => version_cmp ver v <> Lt
  | ">"%char :: v => version_cmp ver v = Gt
  | "="%char :: "="%char :: v => version_cmp ver v = Eq
  | "!"%char :: "="%char :: v => version_cmp ver v <> Eq
  | "<"%char :: "="%char :: v => version_cmp ver v <> Gt
  | "<"%char :: v => version_cmp ver v = Lt
  | "="%char :: v => version_cmp ver v = Eq
  | v => version_cmp ver v = Eq
  end.
