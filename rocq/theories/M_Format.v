(** Model of string formatting: src/functions/string.c 79-212, and of the number parsing it
    uses (src/lang/string.c 394-419) and of index checks (src/lang/interpreter.c 63-82). *)
From Verif Require Import Base.

(** ** strtol in base 10, as used by str_to_i *)
(** C isspace in the C locale *)
Definition c_isspace (c : ascii) : bool := ((9 <=? cval c) && (cval c <=? 13)) || (cval c =? 32).
Fixpoint digits_val (l : bytes) (acc : Z) : Z * bytes :=
  match l with
  | c :: l' => if is_digit c then digits_val l' (acc * 10 + (Z.of_nat (cval c) - 48))%Z else (acc, l)
  | [] => (acc, [])
  end.
Definition LONG_MAX : Z := 9223372036854775807%Z.
Definition LONG_MIN : Z := (-9223372036854775808)%Z.
Definition clamp (z : Z) : Z := Z.max LONG_MIN (Z.min LONG_MAX z).
(** value and the rest of the text ([endptr]); without digits nothing is consumed *)
Definition strtol (l : bytes) : Z * bytes :=
  let l1 := dropw c_isspace l in
  let '(neg, l2) := match l1 with
                    | c :: r => if ceqb c "-"%char then (true, r) else if ceqb c "+"%char then (false, r) else (false, l1)
                    | [] => (false, l1)
                    end in
  match l2 with
  | c :: _ => if is_digit c
              then let '(v, rest) := digits_val l2 0 in (clamp (if neg then - v else v), rest)
              else (0%Z, l)
  | [] => (0%Z, l)
  end.

(** lang/string.c 388-392 is_whitespace *)
Definition is_whitespace (c : ascii) : bool :=
  ceqb c " "%char || ceqb c TAB || ceqb c NL || ceqb c CR.
(** lang/string.c 394-419 str_to_i; the string is followed by NUL (or, for format keys, by
    '@'), where strtol stops *)
Definition str_to_i (ss : bytes) (strip : bool) : option Z :=
  let start := if strip then dropw is_whitespace ss else ss in
  let '(v, endp) := strtol start in
  let endp := if strip then dropw is_whitespace endp else endp in
  match endp with [] => Some v | _ => None end.

(** ** index checks *)
(** interpreter.c 63-71 bounds_adjust: the adjusted index, and whether it is accepted *)
Definition bounds_adjust (len : Z) (i : Z) : Z * bool :=
  let i := (if i <? 0 then i + len else i)%Z in (i, (i <? len)%Z).

(** ** string_format *)
Inductive cb_result := CbFound (text : bytes) | CbNotFound | CbError | CbSkip.
Inductive fmt_result := FOk (out : bytes) | FErr | FNoFuel.

Definition slice (s : bytes) (a b : nat) : bytes := firstn (b - a) (skipn a s).

Section Format.
Variable cb : bytes -> cb_result.

(** functions/string.c 91-163; the model's [i = 0] test is the code's "if (i)" *)
Fixpoint fmt_loop (fuel : nat) (s : bytes) (i id_start id_end : nat) (reading : bool) (res : bytes) : fmt_result :=
  match fuel with
  | 0 => FNoFuel
  | S f =>
      if length s <=? i then
        if reading then FOk (res ++ B "@" ++ slice s id_start i)
        else if id_end <? i then FOk (res ++ slice s id_end i) else FOk res
      else if ceqb (nth i s NUL) "@"%char then
        if reading then
          if i =? id_start then fmt_loop f s (i + 1) (i + 1) (i + 1) true (res ++ B "@")
          else match cb (slice s id_start i) with
               | CbNotFound => FErr
               | CbError => FErr
               | CbFound t => fmt_loop f s (i + 1) id_start (i + 1) false (res ++ t)
               | CbSkip => fmt_loop f s id_start 0 id_start false (res ++ B "@")
               end
        else fmt_loop f s (i + 1) (i + 1) id_end true (if i =? 0 then res else res ++ slice s id_end i)
      else if ceqb (nth i s NUL) BSLASH && ceqb (nth (i + 1) s NUL) "@"%char then
        let res := if i =? 0 then res
                   else (if reading then res ++ B "@" else res) ++ slice s id_end i in
        fmt_loop f s (i + 2) (i + 1) (i + 1) false res
      else fmt_loop f s (i + 1) id_start id_end reading res
  end.

Definition string_format (fuel : nat) (s : bytes) : fmt_result := fmt_loop fuel s 0 0 0 false [].
End Format.

(** functions/string.c 174-191 func_format_cb over already coerced arguments; [CbError] also
    stands for the assertion in obj_array_index, see [format_key_crash] *)
Definition format_cb (args : list bytes) (key : bytes) : cb_result :=
  match str_to_i key false with
  | None => CbSkip
  | Some z => let '(i, ok) := bounds_adjust (Z.of_nat (length args)) z in
              if ok then match (if (0 <=? i)%Z then nth_error args (Z.to_nat i) else None) with
                         | Some t => CbFound t
                         | None => CbError          (* assertion failure in object.c 662 *)
                         end
              else CbError
  end.
Definition format_method (fuel : nat) (s : bytes) (args : list bytes) : fmt_result :=
  string_format (format_cb args) fuel s.

(** ** to_int and to_string *)
(** functions/string.c 376-395 func_string_to_int *)
Definition string_to_int (s : bytes) : option Z := str_to_i s true.
(** printf's "%d" conversions; functions/number.c 41-49 func_number_to_string *)
Fixpoint print_N (fuel : nat) (n : N) (acc : bytes) : bytes :=
  match fuel with
  | 0 => acc
  | S f => let acc := ch (N.to_nat (N.modulo n 10) + 48) :: acc in
           if (n <? 10)%N then acc else print_N f (N.div n 10) acc
  end.
Definition print_nat_dec (n : N) : bytes := print_N (S (N.to_nat (N.log2 n))) n [].
Definition number_to_string (z : Z) : bytes :=
  if (z <? 0)%Z then "-"%char :: print_nat_dec (Z.to_N (- z)) else print_nat_dec (Z.to_N z).

(** ** indexing *)
Inductive idx_result {A} := IdxOk (x : A) | IdxErr | IdxCrash.
Arguments idx_result : clear implicits.
(** object.c 657-664 obj_array_index asserts [i >= 0 && i < len] *)
Definition obj_array_index {A} (l : list A) (i : Z) : idx_result A :=
  if (0 <=? i)%Z then match nth_error l (Z.to_nat i) with Some x => IdxOk x | None => IdxCrash end
  else IdxCrash.
(** interpreter.c 265-345 interp_index on an array; on a string the index reads the byte
    [s->s[i]], which is outside the string when [i] is negative *)
Definition interp_index_array {A} (l : list A) (i : Z) : idx_result A :=
  let '(i, ok) := bounds_adjust (Z.of_nat (length l)) i in
  if ok then obj_array_index l i else IdxErr.
(** functions/array.c 25-49 func_array_get *)
Definition func_array_get {A} (l : list A) (i : Z) (fallback : option A) : idx_result A :=
  let '(i, ok) := bounds_adjust (Z.of_nat (length l)) i in
  if ok then obj_array_index l i
  else match fallback with Some d => IdxOk d | None => IdxErr end.
